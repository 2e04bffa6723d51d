(** Lemmas on extended-exponent numbers *)
From Verif Require Import Base WigModel WigSpec WigIdx WigAlg WigTab ShtTrans XnumModel XnumSpec.
Local Open Scope R_scope.

Lemma p2_pos z : 0 < p2 z. Proof. apply powerRZ_lt. lra. Qed.
Lemma p2_add a b : p2 (a + b) = p2 a * p2 b. Proof. apply powerRZ_add. lra. Qed.
Lemma p2_0 : p2 0 = 1. Proof. reflexivity. Qed.
Lemma p2_rp z : p2 z = Rpower 2 (IZR z). Proof. apply powerRZ_Rpower. lra. Qed.
Lemma p2_lt a b : (a < b)%Z -> p2 a < p2 b.
Proof. intros H. rewrite !p2_rp. apply Rpower_lt; [lra|now apply IZR_lt]. Qed.
Lemma p2_le a b : (a <= b)%Z -> p2 a <= p2 b.
Proof. intros H. destruct (Z.eq_dec a b) as [->|]; [lra|]. left. apply p2_lt. lia. Qed.
Lemma p2_1 : p2 1 = 2. Proof. apply powerRZ_1. Qed.
Lemma p2d z : powerRZ 2 z = p2 z. Proof. reflexivity. Qed.
Opaque p2.
Lemma p2_inv a b : (a + b = 0)%Z -> p2 a * p2 b = 1.
Proof. intros H. now rewrite <- p2_add, H, p2_0. Qed.
Lemma lt_shift x a b c : x < p2 a -> (a + b = c)%Z -> x * p2 b < p2 c.
Proof. intros H <-. rewrite p2_add. apply Rmult_lt_compat_r; [apply p2_pos|auto]. Qed.
Lemma le_shift x a b c : x <= p2 a -> (a + b = c)%Z -> x * p2 b <= p2 c.
Proof. intros H <-. rewrite p2_add. apply Rmult_le_compat_r; [left; apply p2_pos|auto]. Qed.
Lemma ge_shift x a b c : p2 a <= x -> (a + b = c)%Z -> p2 c <= x * p2 b.
Proof. intros H <-. rewrite p2_add. apply Rmult_le_compat_r; [left; apply p2_pos|auto]. Qed.
Lemma abs_p2 x z : Rabs (x * p2 z) = Rabs x * p2 z.
Proof. rewrite Rabs_mult, (Rabs_pos_eq (p2 z)); [reflexivity|left; apply p2_pos]. Qed.

(** the three cases of a normalisation *)
Inductive norm_case (x : R) (i : Z) : xnum -> Prop :=
| nc_big : p2 230 <= Rabs x -> norm_case x i (F (x * p2 (-460)), (i + 1)%Z)
| nc_small : Rabs x < p2 (-230) -> norm_case x i (F (x * p2 460), (i - 1)%Z)
| nc_mid : p2 (-230) <= Rabs x < p2 230 -> norm_case x i (F x, i).
Lemma norm_cases x i : norm_case x i (xnum_norm (F x, i)).
Proof.
  unfold xnum_norm, fge, flt, fabs. pose proof (p2_lt (-230) 230 eq_refl).
  destruct (Rle_dec (p2 230) (Rabs x)), (Rlt_dec (Rabs x) (p2 (-230))); try lra; cbn [fmul]; constructor; lra.
Qed.
Lemma norm_value c v : xval c v -> xval (xnum_norm c) v.
Proof.
  destruct c as [a i]. intros (x & E & ->). cbn in E. subst a. cbn [snd]. rewrite p2d.
  destruct (norm_cases x i); eexists; (split; [reflexivity|]); cbn [snd]; [rewrite (p2d (460 * (i + 1)))|rewrite (p2d (460 * (i - 1)))|rewrite (p2d (460 * i)); reflexivity].
  - rewrite Rmult_assoc, <- p2_add. f_equal. f_equal. lia.
  - rewrite Rmult_assoc, <- p2_add. f_equal. f_equal. lia.
Qed.
Lemma norm_normalises x i : p2 (-690) <= Rabs x < p2 690 -> normalised (xnum_norm (F x, i)).
Proof.
  intros H. destruct (norm_cases x i); eexists; (split; [reflexivity|]); try rewrite abs_p2; rewrite (p2d (-230)), (p2d 230).
  - split; [apply ge_shift with (a := 230%Z); auto|apply lt_shift with (a := 690%Z); [tauto|reflexivity]].
  - split; [apply ge_shift with (a := (-690)%Z); [tauto|reflexivity]|apply lt_shift with (a := (-230)%Z); [tauto|reflexivity]].
  - tauto.
Qed.

(** * Power tables *)
Lemma Int_part_Z z : Int_part (IZR z) = z.
Proof.
  destruct (base_Int_part (IZR z)) as [A B]. apply Z.le_antisymm; [now apply le_IZR|].
  apply Z.lt_succ_r, lt_IZR. rewrite succ_IZR. lra.
Qed.
Lemma entry_ok nanint b k : 0 < b <= 1 ->
  xval (power_entry nanint (flog2 (F (Rabs b))) k) (b ^ k) /\ normalised (power_entry nanint (flog2 (F (Rabs b))) k)
  /\ (snd (power_entry nanint (flog2 (F (Rabs b))) k) <= 0)%Z.
Proof.
  intros Hb. rewrite (Rabs_pos_eq b) by lra. unfold power_entry, flog2. destruct (Rlt_dec 0 b) as [b0|]; [|lra].
  set (lm := ln b / ln 2). assert (L2 : 0 < ln 2) by (rewrite <- ln_1; apply ln_increasing; lra).
  assert (LB : ln b <= 0). { destruct (Req_dec b 1) as [->|]; [rewrite ln_1; lra|]. left. rewrite <- ln_1. apply ln_increasing; lra. }
  assert (LM : lm <= 0). { unfold lm, Rdiv. pose proof (Rinv_0_lt_compat _ L2). nra. }
  assert (PW : b ^ k = Rpower 2 (lm * INR k)).
  { unfold Rpower, lm. replace (ln b / ln 2 * INR k * ln 2) with (INR k * ln b) by (field; lra). rewrite <- ln_pow_INR by auto. rewrite exp_ln; [reflexivity|apply pow_lt; auto]. }
  cbn [fmul fabs frem460 fdiv460 fsign].
  set (y := Rabs (lm * INR k)). assert (Y : y = - (lm * INR k)).
  { unfold y. rewrite Rabs_left1; [reflexivity|]. pose proof (pos_INR k). nra. }
  assert (Y0 : 0 <= y) by apply Rabs_pos.
  set (q := Int_part (y / 460)). destruct (base_Int_part (y / 460)) as [Q1 Q2]. fold q in Q1, Q2.
  assert (Q0 : (0 <= q)%Z). { apply Z.lt_succ_r, lt_IZR. rewrite succ_IZR. lra. }
  set (r := y - 460 * IZR q). assert (RR : 0 <= r < 460) by (unfold r; lra).
  destruct (Rlt_dec 0 lm) as [|]; [lra|]. destruct (Rlt_dec lm 0) as [N|N].
  - cbn [fpow2 ftoint].
    assert (TI : (if Rle_dec 0 (IZR q * -1) then Int_part (IZR q * -1) else (- Int_part (- (IZR q * -1)))%Z) = (- q)%Z).
    { destruct (Rle_dec 0 (IZR q * -1)) as [G|G].
      - assert (q <= 0)%Z by (apply le_IZR; lra). assert (q = 0)%Z by lia. rewrite H0. replace (0 * -1) with 0 by ring. apply (Int_part_Z 0).
      - replace (- (IZR q * -1)) with (IZR q) by ring. now rewrite Int_part_Z. }
    rewrite TI.
    assert (B : p2 (-460) < Rpower 2 (r * -1) <= 1).
    { rewrite p2_rp. split; [apply Rpower_lt; lra|]. rewrite <- (Rpower_O 2) by lra. apply Rle_Rpower; lra. }
    split; [|split].
    + apply norm_value. eexists. split; [reflexivity|]. cbn [snd]. rewrite (p2d (460 * - q)), p2_rp, <- Rpower_plus, PW. f_equal.
      rewrite mult_IZR, opp_IZR. unfold r. lra.
    + apply norm_normalises. rewrite Rabs_pos_eq by (left; apply exp_pos).
      split; [pose proof (p2_le (-690) (-460) ltac:(lia)); lra|]. pose proof (p2_lt 0 690 eq_refl). rewrite p2_0 in *. lra.
    + destruct (norm_cases (Rpower 2 (r * -1)) (- q)) as [G|G|G]; cbn [snd]; try lia. exfalso.
      rewrite Rabs_pos_eq in G by (left; apply exp_pos). pose proof (p2_lt 0 230 eq_refl). rewrite p2_0 in *. lra.
  - assert (Z0 : lm = 0) by lra. assert (R0 : y = 0) by (rewrite Y, Z0; ring).
    cbn [fpow2 ftoint]. rewrite !Rmult_0_r. destruct (Rle_dec 0 0); [|lra]. rewrite (Int_part_Z 0).
    assert (E1 : Rpower 2 0 = 1) by (apply Rpower_O; lra). rewrite E1.
    split; [|split].
    + apply norm_value. exists 1. split; [reflexivity|]. cbn [snd]. rewrite (p2d (460 * 0)). change (460 * 0)%Z with 0%Z. rewrite p2_0. rewrite PW, Z0, Rmult_0_l, E1. ring.
    + apply norm_normalises. rewrite Rabs_R1. pose proof (p2_lt (-690) 0 eq_refl). pose proof (p2_lt 0 690 eq_refl). rewrite p2_0 in *. lra.
    + destruct (norm_cases 1 0) as [G|G|G]; cbn [snd]; try lia. exfalso.
      rewrite Rabs_R1 in G. pose proof (p2_lt 0 230 eq_refl). rewrite p2_0 in *. lra.
Qed.

(** * Bounded cells *)
(** exponent not positive, mantissa below 2^230, value within E of v *)
Definition near (c : xnum) (v E : R) : Prop :=
  exists x i, c = (F x, i) /\ (i <= 0)%Z /\ Rabs x < p2 230 /\ Rabs (x * p2 (460 * i) - v) <= E.

Lemma norm_safe x i : (i <= 0)%Z -> Rabs x < p2 690 -> Rabs (x * p2 (460 * i)) < p2 230 ->
  exists x' i', xnum_norm (F x, i) = (F x', i') /\ (i' <= 0)%Z /\ Rabs x' < p2 230 /\ x' * p2 (460 * i') = x * p2 (460 * i).
Proof.
  intros Hi H1 H2. destruct (norm_cases x i) as [G|G|G]; do 2 eexists; (split; [reflexivity|]).
  - assert (i <> 0%Z). { intros ->. change (460 * 0)%Z with 0%Z in H2. rewrite p2_0, Rmult_1_r in H2. lra. }
    split; [lia|]. rewrite abs_p2. split; [apply lt_shift with (a := 690%Z); auto|].
    rewrite Rmult_assoc, <- p2_add. f_equal. f_equal. lia.
  - split; [lia|]. rewrite abs_p2. split; [apply lt_shift with (a := (-230)%Z); auto|].
    rewrite Rmult_assoc, <- p2_add. f_equal. f_equal. lia.
  - tauto.
Qed.

Lemma val_small x i : (i <= -1)%Z -> Rabs x < p2 230 -> Rabs (x * p2 (460 * i)) < p2 (-230).
Proof.
  intros Hi Hx. rewrite abs_p2. apply Rlt_le_trans with (p2 230 * p2 (460 * i)); [apply Rmult_lt_compat_r; [apply p2_pos|auto]|].
  rewrite <- p2_add. apply p2_le. lia.
Qed.

(** the difference of two safe numbers: error at most 2^-230 whatever the default type *)
Lemma sum_safe dd x ix y iy : (ix <= 0)%Z -> (iy <= 0)%Z -> Rabs x < p2 230 -> Rabs y < p2 230 ->
  Rabs (x * p2 (460 * ix)) + Rabs (y * p2 (460 * iy)) <= p2 228 ->
  exists z iz, xnum_sum dd (F x, ix) (F y, iy) 1 (-1) = (F z, iz) /\ (iz <= 0)%Z /\ Rabs z < p2 230 /\
    Rabs (z * p2 (460 * iz) - (x * p2 (460 * ix) - y * p2 (460 * iy))) <= p2 (-230).
Proof.
  intros Hx Hy Bx By HS. unfold xnum_sum. set (vx := x * p2 (460 * ix)) in *. set (vy := y * p2 (460 * iy)) in *.
  assert (FIN : forall z iz, (iz <= 0)%Z -> Rabs z < p2 690 -> Rabs (z * p2 (460 * iz) - (vx - vy)) <= p2 (-230) ->
    exists z' iz', xnum_norm (F z, iz) = (F z', iz') /\ (iz' <= 0)%Z /\ Rabs z' < p2 230 /\ Rabs (z' * p2 (460 * iz') - (vx - vy)) <= p2 (-230)).
  { intros z iz H1 H2 H3. destruct (norm_safe z iz H1 H2) as (z' & iz' & E & A & B & C).
    - assert (Rabs (z * p2 (460 * iz)) <= Rabs vx + Rabs vy + p2 (-230)).
      { replace (z * p2 (460 * iz)) with (z * p2 (460 * iz) - (vx - vy) + (vx + - vy)) by ring.
        eapply Rle_trans; [apply Rabs_triang|]. pose proof (Rabs_triang vx (- vy)) as T. rewrite Rabs_Ropp in T. lra. }
      pose proof (p2_le (-230) 228 ltac:(lia)). assert (p2 230 = 4 * p2 228).
      { change 230%Z with (1 + (1 + 228))%Z. rewrite !p2_add, p2_1. ring. }
      pose proof (p2_pos 228). lra.
    - exists z', iz'. rewrite C. auto. }
  assert (T1 : forall a b, Rabs a < p2 230 -> Rabs b < p2 230 -> Rabs (a + b) < p2 690).
  { intros a b A B. eapply Rle_lt_trans; [apply Rabs_triang|]. apply Rlt_trans with (p2 231).
    - replace (p2 231) with (2 * p2 230) by (change 231%Z with (1 + 230)%Z; rewrite p2_add, p2_1; ring). lra.
    - now apply p2_lt. }
  assert (SC : forall a, Rabs a < p2 230 -> Rabs (match bigi_s dd with F r => a * r | _ => 0 end) < p2 230).
  { intros a A. unfold bigi_s. destruct dd; [|rewrite Rmult_0_r, Rabs_R0; apply p2_pos]. rewrite abs_p2.
    eapply Rlt_trans; [apply lt_shift with (a := 230%Z) (c := (-230)%Z); auto|]. now apply p2_lt. }
  assert (BG : exists r, bigi_s dd = F r /\ 0 <= r <= p2 (-460)).
  { unfold bigi_s. pose proof (p2_pos (-460)). destruct dd; [exists (p2 (-460))|exists 0]; split; auto; lra. }
  destruct BG as (r & BG & Hr). rewrite BG in SC |- *.
  assert (DR : forall a i j, (j <= 0)%Z -> (i = j - 1)%Z -> Rabs a < p2 230 -> Rabs (a * r * p2 (460 * j) - a * p2 (460 * i)) <= p2 (-230)).
  { intros a i j Hj -> A. replace (460 * (j - 1))%Z with (-460 + 460 * j)%Z by lia. rewrite p2_add.
    replace (a * r * p2 (460 * j) - a * (p2 (-460) * p2 (460 * j))) with (a * (r - p2 (-460)) * p2 (460 * j)) by ring.
    rewrite abs_p2, Rabs_mult, (Rabs_left1 (r - _)) by lra.
    apply Rle_trans with (p2 230 * p2 (-460) * p2 (460 * j)).
    - apply Rmult_le_compat_r; [left; apply p2_pos|]. apply Rmult_le_compat; try lra. apply Rabs_pos.
    - rewrite <- !p2_add. apply p2_le. lia. }
  cbn [fmul fadd].
  destruct (Z.eqb_spec (ix - iy) 0) as [E0|N0].
  { assert (iy = ix) by lia. subst iy. apply FIN; auto.
    - apply T1; [rewrite Rmult_1_l; auto|]. replace (-1 * y) with (- y) by ring. now rewrite Rabs_Ropp.
    - unfold vx, vy. replace (_ - _) with 0 by ring. rewrite Rabs_R0. left. apply p2_pos. }
  destruct (Z.eqb_spec (ix - iy) 1) as [E1|N1].
  { apply FIN; auto.
    - apply T1; [rewrite Rmult_1_l; auto|]. apply SC. replace (-1 * y) with (- y) by ring. now rewrite Rabs_Ropp.
    - unfold vx, vy. replace ((1 * x + -1 * y * r) * p2 (460 * ix) - (x * p2 (460 * ix) - y * p2 (460 * iy)))
        with (- (y * r * p2 (460 * ix) - y * p2 (460 * iy))) by ring. rewrite Rabs_Ropp. apply DR; auto. lia. }
  destruct (Z.eqb_spec (ix - iy) (-1)) as [E2|N2].
  { apply FIN; auto.
    - apply T1; [replace (-1 * y) with (- y) by ring; now rewrite Rabs_Ropp|]. apply SC. now rewrite Rmult_1_l.
    - unfold vx, vy. replace ((-1 * y + 1 * x * r) * p2 (460 * iy) - (x * p2 (460 * ix) - y * p2 (460 * iy)))
        with (x * r * p2 (460 * iy) - x * p2 (460 * ix)) by ring. apply DR; auto. lia. }
  assert (P9 : p2 230 < p2 690) by now apply p2_lt.
  destruct (Z.ltb_spec 1 (ix - iy)) as [G|G].
  - apply FIN; auto; [rewrite Rmult_1_l; lra|]. unfold vx.
    replace (1 * x * p2 (460 * ix) - (x * p2 (460 * ix) - vy)) with vy by ring. left. apply val_small; auto. lia.
  - apply FIN; auto; [replace (-1 * y) with (- y) by ring; rewrite Rabs_Ropp; lra|]. unfold vy.
    replace (-1 * y * p2 (460 * iy) - (vx - y * p2 (460 * iy))) with (- vx) by ring. rewrite Rabs_Ropp. left. apply val_small; auto. lia.
Qed.
Lemma to_fp_safe dd x i : (i <= 0)%Z -> Rabs x < p2 230 ->
  exists y, xnum_to_fp dd (F x, i) = F y /\ Rabs (y - x * p2 (460 * i)) <= p2 (-230).
Proof.
  intros Hi Hx. unfold xnum_to_fp. destruct (Z.eqb_spec i 0) as [->|N].
  { exists x. split; [reflexivity|]. change (460 * 0)%Z with 0%Z. rewrite p2_0. replace (x - x * 1) with 0 by ring. rewrite Rabs_R0. left. apply p2_pos. }
  destruct (Z.ltb_spec i 0); [|lia]. unfold bigi_s. destruct dd; cbn [fmul]; eexists; (split; [reflexivity|]).
  - replace (x * p2 (-460) - x * p2 (460 * i)) with (x * (p2 (-460) - p2 (460 * i))) by ring.
    pose proof (p2_le (460 * i) (-460) ltac:(lia)). pose proof (p2_pos (460 * i)).
    rewrite Rabs_mult, (Rabs_pos_eq (_ - _)) by lra.
    apply Rle_trans with (p2 230 * p2 (-460)); [|rewrite <- p2_add; apply p2_le; lia]. apply Rmult_le_compat; try lra. apply Rabs_pos.
  - replace (x * 0 - x * p2 (460 * i)) with (- (x * p2 (460 * i))) by ring. rewrite Rabs_Ropp. left. apply val_small; auto. lia.
Qed.
