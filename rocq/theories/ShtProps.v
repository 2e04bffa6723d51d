(** Properties C195-C199: the spherical harmonic transforms *)
From Coquelicot Require Import Coquelicot.
From Verif Require Import Base WigModel WigSpec WigAlg WigSym ShtModel ShtSpec ShtLadder ShtQuad ShtWeights ShtDlt ShtFft ShtTrans ShtXf ShtReal.
Local Open Scope R_scope.

(** C195: the sparse weights.  Row (m, l) of the tensor, multiplied with the cosine matrix (m even) or the sine matrix (m odd), is the normalised
    Legendre function sqrt((2l+1)/2) d^l_m0 at the k-th polar node; everything outside the diagonal blocks and every row with |m| > l is zero. *)
Theorem c195_weights_exist full cut junk bs L : (0 < bs)%nat -> (0 < L)%nat -> exists fuel, forall f, (fuel <= f)%nat -> exists ws, sht_weights full cut junk f bs L = Some ws.
Proof. intros Hb HL. destruct (weights_good full cut junk bs L Hb HL) as [fuel H]. exists fuel. intros f Hf. destruct (H f Hf) as (ws & E & _). eauto. Qed.
Theorem c195_rows (full : bool) cut junk bs L : (0 < bs)%nat -> (0 < L)%nat -> 0 <= cut -> exists fuel, forall f, (fuel <= f)%nat ->
  exists ws, sht_weights full cut junk f bs L = Some ws /\
  forall i l, (i < if full then 2 * L - 1 else L)%nat -> (l < L)%nat ->
    let m := (Z.of_nat i - if full then Z.of_nat L - 1 else 0)%Z in
    forall k,
    Rabs (sumn (2 * L) (fun n => coo_at ws (i * L + l) (i * (2 * L) + n) * (if Z.even m then idct_matrix (2 * L) k n else idst_matrix (2 * L) k n))
          - (if (Z.abs m <=? Z.of_nat l)%Z then sqrt ((2 * INR l + 1) / 2) * wigner (Z.of_nat l) m 0 (PI * (2 * INR k + 1) / (4 * INR L)) else 0)) <= INR L * cut.
Proof.
  intros Hb HL Hc. destruct (weights_good full cut junk bs L Hb HL) as [fuel H]. exists fuel. intros f Hf. destruct (H f Hf) as (ws & E & G). exists ws. split; [exact E|].
  intros i l Hi Hl m k. pose proof (V_close full cut L ws Hc G i l k Hi Hl) as Q. unfold V, row_val, trig_mat, q_lm, p_lm in Q.
  replace (node (2 * L) k) with (PI * (2 * INR k + 1) / (4 * INR L)) in Q.
  - rewrite <- INR_IZR_INZ in Q. exact Q.
  - assert (0 < INR L) by (apply lt_0_INR; lia). unfold node. rewrite mult_INR. cbn [INR]. field. lra.
Qed.
Theorem c195_block_diagonal (full : bool) cut junk bs L : (0 < bs)%nat -> (0 < L)%nat -> exists fuel, forall f, (fuel <= f)%nat ->
  exists ws, sht_weights full cut junk f bs L = Some ws /\
  forall i l i' n, (i < if full then 2 * L - 1 else L)%nat -> (l < L)%nat -> (i' < if full then 2 * L - 1 else L)%nat -> (n < 2 * L)%nat ->
    i <> i' \/ (l < n)%nat -> coo_at ws (i * L + l) (i' * (2 * L) + n) = 0.
Proof.
  intros Hb HL. destruct (weights_good full cut junk bs L Hb HL) as [fuel H]. exists fuel. intros f Hf. destruct (H f Hf) as (ws & E & G). exists ws. split; [exact E|].
  intros i l i' n Hi Hl Hi' Hn D. rewrite (G i l i' n Hi Hl Hi' Hn). destruct (Nat.eqb_spec i i'); [|reflexivity]. destruct D as [D|D]; [contradiction|].
  unfold dense. destruct (Z.leb_spec (Z.of_nat n) (Z.of_nat l)); [lia|]. rewrite andb_false_r. reflexivity.
Qed.
(** the identity behind it: Wigner's functions are trigonometric polynomials whose coefficients are products of their values at a right angle *)
Theorem c195_edmonds l m x : (Z.abs m <= l)%Z ->
  wigner l m 0 x = sum_f_R0 (fun i => let n := (Z.of_nat i - l)%Z in wigner l m n (PI / 2) * wigner l 0 n (PI / 2) * cos (IZR n * x + IZR m * (PI / 2))) (Z.to_nat (2 * l)).
Proof. intros Hm. change (wigner l m 0 x = zs l (fun n => wigner l m n (PI / 2) * wigner l 0 n (PI / 2) * cos (IZR n * x + IZR m * (PI / 2)))). rewrite (edmonds l m 0 x) by lia. now rewrite Z.sub_0_r. Qed.
Example c195_example : sumn (2 * 2) (fun n => coef 2 (Z.of_nat 1, 0%Z, Z.of_nat n) * (if Nat.leb n 1 then 1 else 0) * trig_mat 0 (2 * 2) 1 n) = sqrt (3 / 2) * wigner 1 0 0 (node 4 1).
Proof. rewrite (row_exact 2 1 1 0%Z) by (cbn; lia). unfold p_lm. change (IZR (Z.of_nat 1)) with 1. replace (2 * 1 + 1) with 3 by ring. reflexivity. Qed.

(** C196: the grid and its quadrature weights *)
Theorem c196_grid B i j : (0 < B)%nat -> (i < 2 * B)%nat -> (j < 2 * B)%nat ->
  0 <= fst (grid_dh B i j) < 2 * PI /\ 0 < snd (grid_dh B i j) < PI /\
  fst (grid_dh B i j) = 2 * PI * (INR i / INR (2 * B)) /\ snd (grid_dh B i j) = PI * ((INR j + / 2) / INR (2 * B)).
Proof.
  intros HB Hi Hj. assert (N0 : 0 < INR B) by (now apply lt_0_INR). pose proof PI_RGT_0 as P0.
  assert (E1 : fst (grid_dh B i j) = 2 * PI * (INR i / INR (2 * B))) by (unfold grid_dh; cbn [fst]; rewrite mult_INR; cbn [INR]; field; lra).
  assert (E2 : snd (grid_dh B i j) = PI * ((INR j + / 2) / INR (2 * B))) by (unfold grid_dh; cbn [snd]; rewrite mult_INR; cbn [INR]; field; lra).
  rewrite E1, E2. assert (N2 : 0 < INR (2 * B)) by (apply lt_0_INR; lia).
  assert (A : 0 <= INR i / INR (2 * B) < 1).
  { split; [apply Rmult_le_pos; [apply pos_INR|apply Rlt_le, Rinv_0_lt_compat, N2]|]. apply (Rmult_lt_reg_r (INR (2 * B))); [exact N2|]. unfold Rdiv. rewrite Rmult_assoc, Rinv_l, Rmult_1_r, Rmult_1_l by lra. now apply lt_INR. }
  assert (C : 0 < (INR j + / 2) / INR (2 * B) < 1).
  { pose proof (pos_INR j). split; [apply Rdiv_lt_0_compat; lra|]. apply (Rmult_lt_reg_r (INR (2 * B))); [exact N2|]. unfold Rdiv. rewrite Rmult_assoc, Rinv_l, Rmult_1_r, Rmult_1_l by lra.
    assert (INR j + 1 <= INR (2 * B)) by (rewrite <- S_INR; apply le_INR; lia). lra. }
  repeat split; nra.
Qed.
Theorem c196_xyz_unit B i j : (0 < B)%nat -> (i < 2 * B)%nat -> (j < 2 * B)%nat -> let v := theta_phi_to_xyz (grid_dh B i j) in
  vx v * vx v + vy v * vy v + vz v * vz v = 1 /\ vz v = cos (snd (grid_dh B i j)) /\ -1 < vz v < 1.
Proof.
  intros HB Hi Hj v. destruct (c196_grid B i j HB Hi Hj) as (_ & H & _). unfold v, theta_phi_to_xyz. cbn [vx vy vz]. set (t := fst (grid_dh B i j)). set (p := snd (grid_dh B i j)) in *.
  pose proof (sin2_cos2 t) as S1. pose proof (sin2_cos2 p) as S2. unfold Rsqr in S1, S2.
  split; [|split; [reflexivity|]].
  - transitivity ((sin t * sin t + cos t * cos t) * (sin p * sin p) + cos p * cos p); [ring|]. rewrite S1. lra.
  - assert (0 < sin p) by (apply sin_gt_0; lra). split; nra.
Qed.
(** the weights integrate cos(q phi) sin(phi) over [0, pi] exactly for every frequency |q| < 2B ... *)
Theorem c196_exact_on_cosines B q : (0 < B)%nat -> (Z.abs q < 2 * Z.of_nat B)%Z ->
  is_RInt (fun x => cos (IZR q * x) * sin x) 0 PI (sumn (2 * B) (fun k => dlt_weight B k * cos (IZR q * (PI * (2 * INR k + 1) / (4 * INR B))))).
Proof.
  intros HB Hq. pose proof (exq_cos B q HB Hq) as E. unfold exq, quad in E. erewrite sumn_ext; [exact E|]. intros k Hk. cbv beta. do 3 f_equal.
  assert (0 < INR B) by (apply lt_0_INR; lia). unfold node. rewrite mult_INR. cbn [INR]. field. lra.
Qed.
(** ... hence products of two Legendre functions, and these are orthonormal on the grid *)
Theorem c196_exact_on_products B l l' m : (0 < B)%nat -> (0 <= l)%Z -> (0 <= l')%Z -> (l + l' < 2 * Z.of_nat B)%Z ->
  is_RInt (fun x => wigner l m 0 x * wigner l' m 0 x * sin x) 0 PI
    (sumn (2 * B) (fun k => let x := PI * (2 * INR k + 1) / (4 * INR B) in dlt_weight B k * (wigner l m 0 x * wigner l' m 0 x))).
Proof.
  intros HB H1 H2 H3. pose proof (exq_wigner B l l' m HB H1 H2 H3) as E. unfold exq, quad in E. erewrite sumn_ext; [exact E|]. intros k Hk. cbv beta zeta.
  replace (PI * (2 * INR k + 1) / (4 * INR B)) with (node (2 * B) k); [reflexivity|]. assert (0 < INR B) by (apply lt_0_INR; lia). unfold node. rewrite mult_INR. cbn [INR]. field. lra.
Qed.
Theorem c196_orthogonal B l l' m : (0 < B)%nat -> (Z.abs m <= l)%Z -> (Z.abs m <= l')%Z -> (l < Z.of_nat B)%Z -> (l' < Z.of_nat B)%Z ->
  sumn (2 * B) (fun k => let x := PI * (2 * INR k + 1) / (4 * INR B) in dlt_weight B k * (wigner l m 0 x * wigner l' m 0 x)) = if Z.eq_dec l l' then 2 / (2 * IZR l + 1) else 0.
Proof.
  intros HB H1 H2 H3 H4. transitivity (quad B (fun x => wigner l m 0 x * wigner l' m 0 x)).
  - unfold quad. apply sumn_ext. intros k Hk. cbv zeta. replace (PI * (2 * INR k + 1) / (4 * INR B)) with (node (2 * B) k); [reflexivity|].
    assert (0 < INR B) by (apply lt_0_INR; lia). unfold node. rewrite mult_INR. cbn [INR]. field. lra.
  - destruct (Z.eq_dec l l') as [<-|N]; [apply quad_norm; lia|apply quad_orth; lia].
Qed.
Theorem c196_weights_sum B : (0 < B)%nat -> sumn (2 * B) (dlt_weight B) = 2.
Proof.
  intros HB. pose proof (quad_cos B 0 HB ltac:(lia)) as Q. unfold cos_moment in Q. cbn [Z.even] in Q.
  transitivity (2 / (1 - 0 * 0)); [|field]. rewrite <- Q. apply sumn_ext. intros k Hk. rewrite Rmult_0_l, cos_0. ring.
Qed.
Example c196_example : sumn (2 * 2) (fun k => let x := PI * (2 * INR k + 1) / (4 * INR 2) in dlt_weight 2 k * (wigner 1 1 0 x * wigner 1 1 0 x)) = 2 / 3.
Proof. rewrite (c196_orthogonal 2 1 1 1) by lia. destruct (Z.eq_dec 1 1); [|lia]. f_equal. ring. Qed.

(** C197: the cosine and sine matrices are orthogonal *)
Theorem c197_dct_orthogonal N n n' : (0 < N)%nat -> (n < N)%nat -> (n' < N)%nat ->
  sumn N (fun k => idct_matrix N k n * idct_matrix N k n') = if Nat.eqb n n' then 1 else 0.
Proof.
  intros HN Hn Hn'. assert (N0 : 0 < INR N) by (now apply lt_0_INR).
  set (c := fun n => if Nat.eqb n 0 then sqrt (1 / INR N) else sqrt (2 / INR N)).
  rewrite (sumn_ext _ _ (fun k => (c n * c n') * (cos (IZR (Z.of_nat n) * node N k) * cos (IZR (Z.of_nat n') * node N k)))).
  2:{ intros k Hk. unfold idct_matrix. rewrite !trig_arg_c. fold (c n) (c n'). rewrite <- !INR_IZR_INZ. ring. }
  rewrite sumn_scal, cos_orth by lia. assert (S1 : sqrt (1 / INR N) * sqrt (1 / INR N) = 1 / INR N) by (apply sqrt_sqrt, Rlt_le, Rdiv_lt_0_compat; lra).
  assert (S2 : sqrt (2 / INR N) * sqrt (2 / INR N) = 2 / INR N) by (apply sqrt_sqrt, Rlt_le, Rdiv_lt_0_compat; lra).
  unfold c. destruct (Nat.eqb_spec n n') as [<-|D].
  - destruct (Z.eq_dec (Z.of_nat n - Z.of_nat n) 0); [|lia]. destruct (Nat.eqb_spec n 0) as [->|Z0].
    + destruct (Z.eq_dec (Z.of_nat 0 + Z.of_nat 0) 0); [|lia]. rewrite S1. field. lra.
    + destruct (Z.eq_dec (Z.of_nat n + Z.of_nat n) 0); [lia|]. rewrite S2. field. lra.
  - destruct (Z.eq_dec (Z.of_nat n - Z.of_nat n') 0); [lia|]. destruct (Z.eq_dec (Z.of_nat n + Z.of_nat n') 0); [lia|]. ring.
Qed.
Theorem c197_dst_orthogonal N n n' : (0 < N)%nat -> (n < N)%nat -> (n' < N)%nat ->
  sumn N (fun k => idst_matrix N k n * idst_matrix N k n') = if Nat.eqb n n' then 1 else 0.
Proof.
  intros HN Hn Hn'. assert (N0 : 0 < INR N) by (now apply lt_0_INR).
  set (c := fun n => if Nat.eqb n (N - 1) then sqrt (1 / INR N) else sqrt (2 / INR N)).
  assert (S1 : sqrt (1 / INR N) * sqrt (1 / INR N) = 1 / INR N) by (apply sqrt_sqrt, Rlt_le, Rdiv_lt_0_compat; lra).
  assert (S2 : sqrt (2 / INR N) * sqrt (2 / INR N) = 2 / INR N) by (apply sqrt_sqrt, Rlt_le, Rdiv_lt_0_compat; lra).
  rewrite (sumn_ext _ _ (fun k => (c n * c n') * (sin (IZR (Z.of_nat n + 1) * node N k) * sin (IZR (Z.of_nat n' + 1) * node N k)))).
  2:{ intros k Hk. unfold idst_matrix. rewrite !trig_arg_s. fold (c n) (c n'). rewrite !plus_IZR, <- !INR_IZR_INZ. ring. }
  rewrite sumn_scal.
  destruct (Nat.eq_dec n (N - 1)) as [EN|EN], (Nat.eq_dec n' (N - 1)) as [EN'|EN'].
  - (* both are the last column: sin(N node)^2 = 1 *)
    subst n n'. rewrite Nat.eqb_refl. unfold c. rewrite Nat.eqb_refl, S1.
    rewrite (sumn_ext _ _ (fun _ => 1)).
    + rewrite sumn_const. field. lra.
    + intros k Hk. replace (Z.of_nat (N - 1) + 1)%Z with (Z.of_nat N) by lia. rewrite <- INR_IZR_INZ.
      replace (INR N * node N k) with (IZR (2 * Z.of_nat k + 1) * (PI / 2)).
      * assert (Ev : Z.even (2 * Z.of_nat k + 1) = false) by (rewrite Z.even_add, Z.even_mul; reflexivity). destruct (half_odd _ Ev) as [_ ->].
        destruct ((2 * Z.of_nat k + 1) mod 4 =? 1)%Z; ring.
      * unfold node. rewrite plus_IZR, mult_IZR, <- INR_IZR_INZ. field. lra.
  - destruct (Nat.eqb_spec n n'); [lia|]. rewrite sin_orth by lia. destruct (Z.eq_dec (Z.of_nat n + 1 - (Z.of_nat n' + 1)) 0); [lia|]. destruct (Z.eq_dec (Z.of_nat n + 1 + (Z.of_nat n' + 1)) 0); [lia|]. ring.
  - destruct (Nat.eqb_spec n n'); [lia|]. rewrite sin_orth by lia. destruct (Z.eq_dec (Z.of_nat n + 1 - (Z.of_nat n' + 1)) 0); [lia|]. destruct (Z.eq_dec (Z.of_nat n + 1 + (Z.of_nat n' + 1)) 0); [lia|]. ring.
  - rewrite sin_orth by lia. destruct (Z.eq_dec (Z.of_nat n + 1 + (Z.of_nat n' + 1)) 0); [lia|]. unfold c. destruct (Nat.eqb_spec n (N - 1)); [lia|]. destruct (Nat.eqb_spec n' (N - 1)); [lia|]. rewrite S2.
    destruct (Nat.eqb_spec n n') as [<-|D]; destruct (Z.eq_dec _ 0); try lia; field; lra.
Qed.
(** the inverse layers undo the unweighted forward ones: transposing the orthogonal matrix *)
Theorem c197_layers L x n : (0 < L)%nat -> (n < 2 * L)%nat ->
  sumn (2 * L) (fun k => layer L XIC x k * idct_matrix (2 * L) k n) = x n /\ sumn (2 * L) (fun k => layer L XIS x k * idst_matrix (2 * L) k n) = x n.
Proof.
  intros HL Hn. assert (A : forall M : nat -> nat -> R, (forall a b, (a < 2 * L)%nat -> (b < 2 * L)%nat -> sumn (2 * L) (fun k => M k a * M k b) = if Nat.eqb a b then 1 else 0) ->
    sumn (2 * L) (fun k => sumn (2 * L) (fun a => x a * M k a) * M k n) = x n).
  { intros M HM. rewrite (sumn_ext _ _ (fun k => sumn (2 * L) (fun a => x a * (M k a * M k n)))) by (intros; rewrite <- sumn_scal_r; apply sumn_ext; intros; ring).
    rewrite sumn_swap, (sumn_single _ _ n Hn).
    - rewrite sumn_scal, HM, Nat.eqb_refl by assumption. ring.
    - intros a Ha N. rewrite sumn_scal, HM by assumption. destruct (Nat.eqb_spec a n); [contradiction|ring]. }
  split; apply A; intros a b Ha Hb; [apply c197_dct_orthogonal|apply c197_dst_orthogonal]; lia.
Qed.
Example c197_example : sumn 4 (fun k => idst_matrix 4 k 1 * idst_matrix 4 k 1) = 1.
Proof. rewrite (c197_dst_orthogonal 4 1 1) by lia. reflexivity. Qed.

(** C198: the complex transform *)
(** the inverse transform evaluates the harmonic series on the grid, up to the discarded weights (cut = 0: exactly) *)
Theorem c198_isht_synthesis cut junk bs L : (0 < bs)%nat -> (0 < L)%nat -> 0 <= cut -> exists fuel, forall f, (fuel <= f)%nat ->
  exists ws, sht_weights true cut junk f bs L = Some ws /\
  forall Psi P, (forall i l, (i < 2 * L - 1)%nat -> (l < L)%nat -> cbound P (Psi i l)) ->
  forall j k, cclose (2 * INR L ^ 3 * cut * P) (csht_isht L ws Psi j k) (synthesis L Psi (fst (grid_dh L j k)) (snd (grid_dh L j k))).
Proof.
  intros Hb HL Hc. destruct (weights_good true cut junk bs L Hb HL) as [fuel H]. exists fuel. intros f Hf. destruct (H f Hf) as (ws & E & G). exists ws. split; [exact E|].
  intros Psi P HP j k. now apply (c_isht cut L ws HL Hc G).
Qed.
(** the forward transform is the grid inner product with the conjugate harmonics *)
Theorem c198_fsht_analysis cut junk bs L : (0 < bs)%nat -> (0 < L)%nat -> 0 <= cut -> exists fuel, forall f, (fuel <= f)%nat ->
  exists ws, sht_weights true cut junk f bs L = Some ws /\
  forall psi, lower L (csht_fsht L ws psi) /\
  forall P, (forall j k, (j < 2 * L)%nat -> (k < 2 * L)%nat -> cbound P (psi j k)) ->
  forall i l, (i < 2 * L - 1)%nat -> (l < L)%nat -> let m := (Z.of_nat i - (Z.of_nat L - 1))%Z in (Z.abs m <= Z.of_nat l)%Z ->
    cclose (24 * INR L ^ 2 * cut * P) (csht_fsht L ws psi i l) (analysis L psi m l).
Proof.
  intros Hb HL Hc. destruct (weights_good true cut junk bs L Hb HL) as [fuel H]. exists fuel. intros f Hf. destruct (H f Hf) as (ws & E & G). exists ws. split; [exact E|].
  intros psi. split; [now apply (c_fsht_lower cut L ws HL G)|]. intros P HP i l Hi Hl m Hm. now apply (c_fsht cut L ws HL Hc G).
Qed.
(** coefficients survive the inverse and forward transform *)
Theorem c198_round_trip cut junk bs L : (0 < bs)%nat -> (0 < L)%nat -> 0 <= cut -> exists fuel, forall f, (fuel <= f)%nat ->
  exists ws, sht_weights true cut junk f bs L = Some ws /\
  forall Psi P, lower L Psi -> (forall i l, (i < 2 * L - 1)%nat -> (l < L)%nat -> cbound P (Psi i l)) ->
  forall i l, (i < 2 * L - 1)%nat -> (l < L)%nat ->
    cclose (4 * INR L ^ 4 * (2 * cut + cut ^ 2) * P) (csht_fsht L ws (csht_isht L ws Psi) i l) (Psi i l).
Proof.
  intros Hb HL Hc. destruct (weights_good true cut junk bs L Hb HL) as [fuel H]. exists fuel. intros f Hf. destruct (H f Hf) as (ws & E & G). exists ws. split; [exact E|].
  intros Psi P Hlow HP i l Hi Hl. now apply (c_round cut L ws HL Hc G Psi P i l Hi Hl).
Qed.
Lemma cclose_0 a b : cclose 0 a b -> a = b.
Proof.
  intros [H1 H2]. destruct a as [a1 a2], b as [b1 b2]. cbn [fst snd] in *. pose proof (Rabs_pos (a1 - b1)). pose proof (Rabs_pos (a2 - b2)).
  f_equal; apply Rminus_diag_uniq; [destruct (Req_dec (a1 - b1) 0) as [|N]|destruct (Req_dec (a2 - b2) 0) as [|N]]; auto; apply Rabs_pos_lt in N; lra.
Qed.
Lemma bounded L r (Psi : nat -> nat -> cplx) : exists P, forall i l, (i < r)%nat -> (l < L)%nat -> cbound P (Psi i l).
Proof.
  exists (sumn r (fun i => sumn L (fun l => Rabs (fst (Psi i l)) + Rabs (snd (Psi i l))))). intros i l Hi Hl.
  assert (M : forall n (f : nat -> R) a, (a < n)%nat -> (forall b, 0 <= f b) -> f a <= sumn n f).
  { clear. induction n as [|n IH]; intros f a Ha F; [lia|]. cbn [sumn]. destruct (Nat.eq_dec a n) as [->|].
    - assert (0 <= sumn n f) by (clear IH Ha; induction n as [|n IHn]; cbn [sumn]; [lra|specialize (F n); lra]). lra.
    - pose proof (IH f a ltac:(lia) F). specialize (F n). lra. }
  assert (P1 : forall i l, 0 <= Rabs (fst (Psi i l)) + Rabs (snd (Psi i l))) by (intros i' l'; pose proof (Rabs_pos (fst (Psi i' l'))); pose proof (Rabs_pos (snd (Psi i' l'))); lra).
  assert (P2 : forall i, 0 <= sumn L (fun l => Rabs (fst (Psi i l)) + Rabs (snd (Psi i l)))).
  { intros i'. clear -P1. induction L as [|n IHn]; cbn [sumn]; [lra|]. specialize (P1 i' n). lra. }
  pose proof (M L (fun l => Rabs (fst (Psi i l)) + Rabs (snd (Psi i l))) l Hl (P1 i)). pose proof (M r (fun i => sumn L (fun l => Rabs (fst (Psi i l)) + Rabs (snd (Psi i l)))) i Hi P2). cbv beta in *.
  pose proof (Rabs_pos (fst (Psi i l))). pose proof (Rabs_pos (snd (Psi i l))). split; lra.
Qed.
(** keeping every weight (cut = 0) the statements are equalities *)
Theorem c198_exact junk bs L : (0 < bs)%nat -> (0 < L)%nat -> exists fuel, forall f, (fuel <= f)%nat ->
  exists ws, sht_weights true 0 junk f bs L = Some ws /\
  forall Psi, (forall j k, csht_isht L ws Psi j k = synthesis L Psi (fst (grid_dh L j k)) (snd (grid_dh L j k))) /\
    (lower L Psi -> forall i l, (i < 2 * L - 1)%nat -> (l < L)%nat -> csht_fsht L ws (csht_isht L ws Psi) i l = Psi i l).
Proof.
  intros Hb HL. destruct (weights_good true 0 junk bs L Hb HL) as [fuel H]. exists fuel. intros f Hf. destruct (H f Hf) as (ws & E & G). exists ws. split; [exact E|].
  intros Psi. destruct (bounded L (2 * L - 1) Psi) as [P HP]. split.
  - intros j k. apply cclose_0. pose proof (c_isht 0 L ws HL (Rle_refl 0) G Psi P j k HP) as Q. replace (2 * INR L ^ 3 * 0 * P) with 0 in Q by ring. exact Q.
  - intros Hlow i l Hi Hl. apply cclose_0. pose proof (c_round 0 L ws HL (Rle_refl 0) G Psi P i l Hi Hl Hlow HP) as Q. replace (4 * INR L ^ 4 * (2 * 0 + 0 ^ 2) * P) with 0 in Q by ring. exact Q.
Qed.
Example c198_example : lower 2 (fun i l => if (Nat.eqb i 1 && Nat.eqb l 0)%bool then (1, 2) else if Nat.eqb l 1 then (INR i, -1) else (0, 0)).
Proof. intros i l Hi Hl Hm. destruct (Nat.eqb_spec i 1), (Nat.eqb_spec l 0), (Nat.eqb_spec l 1); cbn [andb]; try reflexivity; subst; cbn in Hm; lia. Qed.

(** C199: the real transform *)
Theorem c199_agrees_with_complex cut junk junk' bs bs' L : (0 < bs)%nat -> (0 < bs')%nat -> (0 < L)%nat -> exists fuel, forall f, (fuel <= f)%nat ->
  exists ws wsc, sht_weights false cut junk f bs L = Some ws /\ sht_weights true cut junk' f bs' L = Some wsc /\
  forall psi i l, (i < L)%nat -> (l < L)%nat ->
    rsht_fsht L ws psi i l = csht_fsht L wsc (fun j k => (psi j k, 0)) (i + (L - 1)) l.
Proof.
  intros Hb Hb' HL. destruct (weights_good false cut junk bs L Hb HL) as [f1 H1]. destruct (weights_good true cut junk' bs' L Hb' HL) as [f2 H2]. exists (Nat.max f1 f2). intros f Hf.
  destruct (H1 f ltac:(lia)) as (ws & E & G). destruct (H2 f ltac:(lia)) as (wsc & E' & G'). exists ws, wsc. split; [exact E|split; [exact E'|]].
  intros psi i l Hi Hl. now apply (r_agree cut L ws HL G).
Qed.
Theorem c199_isht_synthesis cut junk bs L : (0 < bs)%nat -> (0 < L)%nat -> 0 <= cut -> exists fuel, forall f, (fuel <= f)%nat ->
  exists ws, sht_weights false cut junk f bs L = Some ws /\
  forall Psi P, (forall i l, (i < L)%nat -> (l < L)%nat -> cbound P (Psi i l)) ->
  forall j k, Rabs (rsht_isht L ws Psi j k - rsynthesis L Psi (fst (grid_dh L j k)) (snd (grid_dh L j k))) <= 2 * INR L ^ 3 * cut * P.
Proof.
  intros Hb HL Hc. destruct (weights_good false cut junk bs L Hb HL) as [fuel H]. exists fuel. intros f Hf. destruct (H f Hf) as (ws & E & G). exists ws. split; [exact E|].
  intros Psi P HP j k. now apply (r_isht cut L ws HL Hc G).
Qed.
(** coefficients survive, except that the imaginary part of the order 0 is lost (a real signal has none) *)
Theorem c199_round_trip cut junk bs L : (0 < bs)%nat -> (0 < L)%nat -> 0 <= cut -> exists fuel, forall f, (fuel <= f)%nat ->
  exists ws, sht_weights false cut junk f bs L = Some ws /\
  forall Psi P, rlower L Psi -> (forall i l, (i < L)%nat -> (l < L)%nat -> cbound P (Psi i l)) ->
  forall i l, (i < L)%nat -> (l < L)%nat ->
    cclose (4 * INR L ^ 4 * (2 * cut + cut ^ 2) * P) (rsht_fsht L ws (rsht_isht L ws Psi) i l) (if Nat.eqb i 0 then (fst (Psi i l), 0) else Psi i l).
Proof.
  intros Hb HL Hc. destruct (weights_good false cut junk bs L Hb HL) as [fuel H]. exists fuel. intros f Hf. destruct (H f Hf) as (ws & E & G). exists ws. split; [exact E|].
  intros Psi P Hlow HP i l Hi Hl. now apply (r_round cut L ws HL Hc G Psi P i l Hi Hl).
Qed.
Theorem c199_lower cut junk bs L : (0 < bs)%nat -> (0 < L)%nat -> exists fuel, forall f, (fuel <= f)%nat ->
  exists ws, sht_weights false cut junk f bs L = Some ws /\ forall psi, rlower L (rsht_fsht L ws psi).
Proof.
  intros Hb HL. destruct (weights_good false cut junk bs L Hb HL) as [fuel H]. exists fuel. intros f Hf. destruct (H f Hf) as (ws & E & G). exists ws. split; [exact E|].
  intros psi. now apply (r_fsht_lower cut L ws HL G).
Qed.
Example c199_example : rlower 2 (fun i l => if (Nat.eqb i 1 && Nat.eqb l 0)%bool then (0, 0) else (INR i, 1)).
Proof. intros i l Hi Hl. assert (i = 1%nat) by lia. assert (l = 0%nat) by lia. subst. reflexivity. Qed.

Print Assumptions c195_weights_exist.
Print Assumptions c195_rows.
Print Assumptions c195_block_diagonal.
Print Assumptions c195_edmonds.
Print Assumptions c196_grid.
Print Assumptions c196_xyz_unit.
Print Assumptions c196_exact_on_cosines.
Print Assumptions c196_exact_on_products.
Print Assumptions c196_orthogonal.
Print Assumptions c196_weights_sum.
Print Assumptions c197_dct_orthogonal.
Print Assumptions c197_dst_orthogonal.
Print Assumptions c197_layers.
Print Assumptions c198_isht_synthesis.
Print Assumptions c198_fsht_analysis.
Print Assumptions c198_round_trip.
Print Assumptions c198_exact.
Print Assumptions c199_agrees_with_complex.
Print Assumptions c199_isht_synthesis.
Print Assumptions c199_round_trip.
Print Assumptions c199_lower.
