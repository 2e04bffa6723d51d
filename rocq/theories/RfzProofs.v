(** Proofs about cube_to_rfz and rfz_to_cube: both are radial scalings by a factor that depends on the largest and the summed
    absolute coordinate only. *)
From Verif Require Import Base RfzModel RfzSpec.
From Coq Require Import Lra Psatz.
Local Open Scope R_scope.

Lemma sqrt2_facts : 0 < sqrt 2 - 1 /\ (sqrt 2 - 1) * (sqrt 2 + 1) = 1 /\ 0 < sqrt 2 /\ sqrt 2 * sqrt 2 = 2.
Proof.
  assert (H : sqrt 2 * sqrt 2 = 2) by (apply sqrt_sqrt; lra). pose proof (sqrt_pos 2). assert (1 < sqrt 2) by nra. repeat split; nra.
Qed.
(** the factor in terms of maximum and sum *)
Definition radial (m s : R) : R := if Rlt_dec m ((s - m) / sqrt 2) then s * (sqrt 2 - 1) / m else 1.
Lemma maxabs_nonneg v : 0 <= maxabs v.
Proof. unfold maxabs. eapply Rle_trans; [apply Rabs_pos|apply Rmax_r]. Qed.
Lemma maxabs_sum v : maxabs v <= sumabs v <= 3 * maxabs v.
Proof.
  unfold maxabs, sumabs. pose proof (Rabs_pos (vx v)). pose proof (Rabs_pos (vy v)). pose proof (Rabs_pos (vz v)).
  unfold Rmax. repeat destruct (Rle_dec _ _); lra.
Qed.
Lemma cone_pos m s : 0 <= m -> m < (s - m) / sqrt 2 -> s <= 3 * m -> 0 < m.
Proof.
  intros Hm H Hs. destruct sqrt2_facts as (_ & _ & P & _). destruct (Req_EM_T m 0) as [->|]; [|lra].
  assert ((s - 0) / sqrt 2 <= 0); [|lra]. apply Rmult_le_reg_r with (sqrt 2); [lra|]. unfold Rdiv. rewrite Rmult_assoc, Rinv_l by lra. lra.
Qed.
Lemma radial_pos v : 0 < radial (maxabs v) (sumabs v).
Proof.
  unfold radial. destruct (Rlt_dec _ _) as [L|]; [|lra]. pose proof (maxabs_nonneg v). pose proof (maxabs_sum v).
  pose proof (cone_pos _ _ H L ltac:(lra)) as P. destruct sqrt2_facts as (Q & _).
  apply Rmult_lt_0_compat; [nra|apply Rinv_0_lt_compat; lra].
Qed.
Lemma maxabs_scale k v : 0 <= k -> maxabs (vscale k v) = k * maxabs v.
Proof.
  intros Hk. unfold maxabs, vscale. cbn [vx vy vz]. rewrite !Rabs_mult, (Rabs_right k) by lra.
  unfold Rmax. repeat destruct (Rle_dec _ _); try reflexivity; try nra.
Qed.
Lemma sumabs_scale k v : 0 <= k -> sumabs (vscale k v) = k * sumabs v.
Proof. intros Hk. unfold sumabs, vscale. cbn [vx vy vz]. rewrite !Rabs_mult, (Rabs_right k) by lra. ring. Qed.
Lemma cone_scale k m s : 0 < k -> (k * m < (k * s - k * m) / sqrt 2 <-> m < (s - m) / sqrt 2).
Proof.
  intros Hk. replace ((k * s - k * m) / sqrt 2) with (k * ((s - m) / sqrt 2)) by (unfold Rdiv; ring). split; intros; nra.
Qed.
Lemma radial_scale k m s : 0 < k -> radial (k * m) (k * s) = radial m s.
Proof.
  intros Hk. unfold radial. pose proof (cone_scale k m s Hk) as C.
  destruct (Rlt_dec (k * m) _) as [A|A], (Rlt_dec m _) as [B|B]; try tauto; try reflexivity.
  destruct (Req_EM_T m 0) as [->|N]; [unfold Rdiv; rewrite Rmult_0_r, Rinv_0; ring|]. field. lra.
Qed.
(** what the sorting finds *)
Lemma sorted_max o v : sorts o (vabs v) -> let '(i, j, k) := o in at_pos (vabs v) k = maxabs v /\ at_pos (vabs v) i + at_pos (vabs v) j = sumabs v - maxabs v.
Proof.
  destruct o as [[i j] k]. unfold sorts. intros (I & A & B). unfold maxabs, sumabs, vabs in *. 
  pose proof (Rabs_pos (vx v)). pose proof (Rabs_pos (vy v)). pose proof (Rabs_pos (vz v)).
  cbn [In] in I. repeat destruct I as [I|I]; try contradiction; injection I as <- <- <-; cbn [at_pos vx vy vz] in *; unfold Rmax; repeat destruct (Rle_dec _ _); lra.
Qed.
Lemma sorts_cone o v : sorts o (vabs v) -> (if cone_scaled o (vabs v) then cone_factor o (vabs v) else 1) = radial (maxabs v) (sumabs v).
Proof.
  intros S. pose proof (sorted_max o v S) as M. destruct o as [[i j] k]. destruct M as [M1 M2]. unfold cone_scaled, cone_factor, radial.
  rewrite M1, M2. destruct (Rlt_dec _ _) as [L|L]; [|reflexivity].
  pose proof (maxabs_nonneg v). pose proof (maxabs_sum v). pose proof (cone_pos _ _ H L ltac:(lra)).
  destruct (Req_EM_T (maxabs v) 0); [lra|]. unfold sumabs. reflexivity.
Qed.
Lemma copysign_scale f a b : 0 <= f -> a = Rabs b * f -> copysign a b = f * b.
Proof. intros Hf ->. unfold copysign. rewrite Rabs_mult, Rabs_Rabsolu, (Rabs_right f) by lra. destruct (Rlt_dec b 0); [rewrite (Rabs_left b) by lra|rewrite (Rabs_right b) by lra]; ring. Qed.
Lemma scatter_sorted o v f : sorts o (vabs v) -> 0 <= f ->
  let '(i, j, k) := o in vcopysign (scatter3 o (at_pos (vabs v) i * f, at_pos (vabs v) j * f, at_pos (vabs v) k * f)) v = vscale f v.
Proof.
  destruct o as [[i j] k]. unfold sorts. intros (I & _) Hf. unfold scatter3, vcopysign, vscale, vabs.
  cbn [In] in I. repeat destruct I as [I|I]; try contradiction; injection I as <- <- <-; cbn [at_pos vx vy vz Nat.eqb]; f_equal; apply copysign_scale; auto.
Qed.
Lemma cube_to_rfz_eq o v : sorts o (vabs v) -> cube_to_rfz o v 11 = RfzOk (vscale (radial (maxabs v) (sumabs v)) v).
Proof.
  intros S. pose proof (sorts_cone o v S) as C. pose proof (scatter_sorted o v _ S (Rlt_le _ _ (radial_pos v))) as E.
  unfold cube_to_rfz. destruct o as [[i j] k]. cbn [Z.eqb Pos.eqb]. cbv zeta. rewrite C, E. reflexivity.
Qed.
Lemma rfz_to_cube_eq o v : sorts o (vabs v) -> rfz_to_cube o v 11 = RfzOk (vscale (/ radial (maxabs v) (sumabs v)) v).
Proof.
  intros S. pose proof (sorts_cone o v S) as C. pose proof (Rinv_0_lt_compat _ (radial_pos v)) as P.
  pose proof (scatter_sorted o v _ S (Rlt_le _ _ P)) as E.
  unfold rfz_to_cube. destruct o as [[i j] k]. cbn [Z.eqb Pos.eqb]. cbv zeta. rewrite C. unfold Rdiv. rewrite E. reflexivity.
Qed.
Lemma vscale_vscale a b v : vscale a (vscale b v) = vscale (a * b) v.
Proof. unfold vscale. cbn [vx vy vz]. f_equal; ring. Qed.
Lemma vscale_1 v : vscale 1 v = v.
Proof. destruct v as [a b c]. unfold vscale. cbn [vx vy vz]. f_equal; ring. Qed.
Lemma radial_after k v : 0 < k -> radial (maxabs (vscale k v)) (sumabs (vscale k v)) = radial (maxabs v) (sumabs v).
Proof. intros Hk. rewrite maxabs_scale, sumabs_scale by lra. apply radial_scale. exact Hk. Qed.
Lemma there_and_back o o' v w : sorts o (vabs v) -> cube_to_rfz o v 11 = RfzOk w -> sorts o' (vabs w) -> rfz_to_cube o' w 11 = RfzOk v.
Proof.
  intros S E S'. rewrite (cube_to_rfz_eq o v S) in E. injection E as <-. rewrite (rfz_to_cube_eq _ _ S').
  pose proof (radial_pos v) as P. rewrite radial_after by exact P. rewrite vscale_vscale, Rinv_l, vscale_1 by lra. reflexivity.
Qed.
Lemma back_and_there o o' v w : sorts o (vabs v) -> rfz_to_cube o v 11 = RfzOk w -> sorts o' (vabs w) -> cube_to_rfz o' w 11 = RfzOk v.
Proof.
  intros S E S'. rewrite (rfz_to_cube_eq o v S) in E. injection E as <-. rewrite (cube_to_rfz_eq _ _ S').
  pose proof (radial_pos v) as P. rewrite radial_after by (apply Rinv_0_lt_compat; exact P). rewrite vscale_vscale, Rinv_r, vscale_1 by lra. reflexivity.
Qed.
(** which body is mapped to which *)
Lemma div_le a b c : 0 < c -> (a / c <= b <-> a <= b * c).
Proof.
  intros Hc. split; intros H.
  - apply Rmult_le_compat_r with (r := c) in H; [|lra]. unfold Rdiv in H. rewrite Rmult_assoc, Rinv_l in H by lra. lra.
  - apply Rmult_le_reg_r with c; [lra|]. unfold Rdiv. rewrite Rmult_assoc, Rinv_l by lra. lra.
Qed.
Lemma cone_lt m s : m < (s - m) / sqrt 2 <-> m * (sqrt 2 + 1) < s.
Proof.
  destruct sqrt2_facts as (_ & _ & P & _).
  pose proof (div_le (s - m) m (sqrt 2) P) as D. split; intros H.
  - destruct (Rle_dec s (m * (sqrt 2 + 1))); [|lra]. assert ((s - m) / sqrt 2 <= m) by (apply D; lra). lra.
  - destruct (Rle_dec ((s - m) / sqrt 2) m) as [L|]; [|lra]. apply D in L. lra.
Qed.
Lemma rfz_to_cube_bodies v : in_cubic_rfz (vscale (/ radial (maxabs v) (sumabs v)) v) <-> in_cube v.
Proof.
  pose proof (radial_pos v) as P. pose proof (Rinv_0_lt_compat _ P) as P'. unfold in_cubic_rfz, in_cube. rewrite maxabs_scale, sumabs_scale by lra.
  pose proof (maxabs_nonneg v) as M0. pose proof (maxabs_sum v) as MS. destruct sqrt2_facts as (Q1 & Q2 & Q3 & Q4).
  revert P P' M0 MS. unfold radial. generalize (maxabs v) (sumabs v). intros m s.
  pose proof (cone_lt m s) as C. destruct (Rlt_dec m ((s - m) / sqrt 2)) as [L|L]; intros P P' M0 MS.
  - pose proof (cone_pos m s M0 L ltac:(lra)) as Mp. apply C in L.
    assert (Es : / (s * (sqrt 2 - 1) / m) * s = m / (sqrt 2 - 1)) by (field; repeat split; nra).
    assert (Em : / (s * (sqrt 2 - 1) / m) * m = m * m / (s * (sqrt 2 - 1))) by (field; repeat split; nra).
    rewrite Es, Em. rewrite (div_le m 1 (sqrt 2 - 1)) by lra. split; [intros [_ H]; lra|].
    intros H. split; [|lra]. apply div_le; [nra|].
    assert (K : m <= s * (sqrt 2 - 1)) by (apply Rmult_lt_compat_r with (r := sqrt 2 - 1) in L; [|lra]; rewrite Rmult_assoc, (Rmult_comm (sqrt 2 + 1)), Q2 in L; lra).
    apply Rmult_le_compat; lra.
  - rewrite Rinv_1, !Rmult_1_l. split; [tauto|]. intros H. split; [exact H|].
    destruct (Rlt_dec (m * (sqrt 2 + 1)) s); [tauto|]. nra.
Qed.
Lemma cube_to_rfz_bodies v : in_cube (vscale (radial (maxabs v) (sumabs v)) v) <-> in_cubic_rfz v.
Proof.
  pose proof (radial_pos v) as P. rewrite <- rfz_to_cube_bodies. rewrite radial_after by exact P.
  rewrite vscale_vscale, Rinv_l, vscale_1 by lra. tauto.
Qed.
(** symmetry *)
Lemma symmetry_abs g : cube_symmetry g -> forall v, maxabs (g v) = maxabs v /\ sumabs (g v) = sumabs v.
Proof.
  intros (p & a & b & c & I & A & B & C & E) v. rewrite E. destruct p as [[i j] k].
  assert (Ab : forall t y, t = 1 \/ t = -1 -> Rabs (t * y) = Rabs y).
  { intros t y [-> | ->]; [rewrite Rmult_1_l; reflexivity|]. replace (-1 * y) with (- y) by ring. apply Rabs_Ropp. }
  unfold maxabs, sumabs. cbn [vx vy vz]. rewrite !Ab by assumption.
  cbn [In] in I. repeat destruct I as [I|I]; try contradiction; injection I as <- <- <-; cbn [at_pos]; (split; [unfold Rmax; repeat destruct (Rle_dec _ _); lra|ring]).
Qed.
Lemma symmetry_scale g : cube_symmetry g -> forall k v, g (vscale k v) = vscale k (g v).
Proof.
  intros (p & a & b & c & I & _ & _ & _ & E) k v. rewrite !E. destruct p as [[i j] l].
  cbn [In] in I. repeat destruct I as [I|I]; try contradiction; injection I as <- <- <-; unfold vscale; cbn [at_pos vx vy vz]; f_equal; ring.
Qed.
Lemma sorts_exists v : exists o, sorts o v.
Proof.
  unfold sorts. destruct (Rle_dec (vx v) (vy v)), (Rle_dec (vy v) (vz v)), (Rle_dec (vx v) (vz v)).
  - exists (0, 1, 2)%nat. cbn [In at_pos]. repeat split; auto.
  - exfalso. lra.
  - exists (0, 2, 1)%nat. cbn [In at_pos]. repeat split; auto; lra.
  - exists (2, 0, 1)%nat. cbn [In at_pos]. repeat split; auto 10; lra.
  - exists (1, 0, 2)%nat. cbn [In at_pos]. repeat split; auto 10; lra.
  - exists (1, 2, 0)%nat. cbn [In at_pos]. repeat split; auto 10; lra.
  - exfalso. lra.
  - exists (2, 1, 0)%nat. cbn [In at_pos]. repeat split; auto 10; lra.
Qed.
