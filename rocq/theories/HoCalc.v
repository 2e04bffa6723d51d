(** Calculus for the polynomial inverse of the homochoric map: if a polynomial P satisfies the differential equation of
    cos(angle / 2) as a function of the squared homochoric radius up to a small residual, the angle it gives is accurate.
    Nothing in this file models repository code. *)
From Coq Require Import Reals Lra Psatz Lia.
From Coquelicot Require Import Coquelicot.
From Verif Require Import OriAxProofs SampProofs.
Local Open Scope R_scope.

(** (3/2) psi (cos (w / 2)) = (3/4) (w - sin w) *)
Definition psi (x : R) : R := acos x - x * sqrt (1 - x * x).
Lemma psi_derive x : -1 < x < 1 -> is_derive psi x (- 2 * sqrt (1 - x * x)).
Proof.
  intros H. assert (Q : 0 < 1 - x * x) by nra. pose proof (sqrt_lt_R0 _ Q) as P. pose proof (sqrt_sqrt (1 - x * x) ltac:(lra)) as SS.
  assert (A : is_derive acos x (- (1 / sqrt (1 - x * x)))).
  { apply is_derive_Reals. pose proof (derive_pt_acos x H) as D. apply derive_pt_eq in D. unfold Rsqr in D. replace (- (1 / sqrt (1 - x * x))) with (-1 / sqrt (1 - x * x)) by (field; lra). exact D. }
  unfold psi. evar_last.
  - apply @is_derive_minus; [exact A|]. apply (is_derive_mult (fun x => x) (fun x => sqrt (1 - x * x)) x 1 (- x / sqrt (1 - x * x))).
    + apply @is_derive_id.
    + auto_derive; [exact Q|]. fold (1 - x * x). field. lra.
    + intros; apply Rmult_comm.
  - unfold minus, plus, opp, mult; simpl. set (s := sqrt (1 - x * x)) in *. 
    replace (x * x) with (1 - s * s) by lra. apply Rmult_eq_reg_r with s; [|lra]. 
    replace ((- (1 / s) + - (1 * s + x * (- x / s))) * s) with (- 1 - s * s + x * x) by (field; lra). nra.
Qed.
Lemma psi_cos w : 0 <= w <= PI -> psi (cos w) = w - sin w * cos w.
Proof.
  intros H. unfold psi. rewrite acos_cos by exact H. replace (1 - cos w * cos w) with (sin w * sin w) by (pose proof (sin2_cos2 w) as Q; unfold Rsqr in Q; lra).
  rewrite sqrt_square by (apply sin_ge_0; lra). ring.
Qed.
Lemma sin_le x : 0 <= x -> sin x <= x.
Proof. intros [H|<-]; [left; apply sin_lt_x; exact H|rewrite sin_0; lra]. Qed.
(** near 1: psi x <= acos x, and acos x <= 2 sqrt (1 - x) *)
Lemma psi_small x d : 0 <= d <= 1 -> 1 - d * d <= x <= 1 -> 0 <= psi x <= 2 * d.
Proof.
  intros Hd Hx. assert (B : -1 <= x <= 1) by nra. pose proof (acos_bound x) as W. set (w := acos x) in *. assert (C : cos w = x) by (apply cos_acos; exact B).
  assert (0 <= x) by nra. assert (Wh : w <= PI / 2).
  { destruct (Rle_dec w (PI/2)); [assumption|]. exfalso. pose proof PI_RGT_0. assert (cos w < cos (PI / 2)) by (apply cos_decreasing_1; lra). rewrite cos_PI2 in *. lra. }
  rewrite <- C, psi_cos by lra. pose proof (sin_ge_0 w ltac:(lra) ltac:(lra)) as S0. pose proof (sin_le w ltac:(lra)) as S1. pose proof (COS_bound w) as CB.
  split; [nra|]. assert (G : w <= 2 * d); [|nra].
  pose proof (cos_small w ltac:(lra)) as [_ U]. pose proof PI_4. assert (w <= 2) by lra.
  assert (U' : cos w <= 1 - w * w / 2 + w * w * (w * w) / 24) by (replace (w * w) with (w ^ 2) by ring; replace (w ^ 2 * w ^ 2) with (w ^ 4) by ring; exact U). rewrite C in U'.
  destruct (Rle_dec w (2 * d)); [assumption|]. exfalso. assert (w * w <= 4) by nra. assert (w * w * (w * w) <= 4 * (w * w)) by nra. nra.
Qed.
Lemma sqrt_taylor z : -1/2 <= z -> - (z * z) / 2 <= sqrt (1 + z) - 1 - z / 2 <= 0.
Proof.
  intros H. set (r := sqrt (1 + z)). assert (P : 0 <= r) by apply sqrt_pos. assert (E : r * r = 1 + z) by (apply sqrt_sqrt; lra).
  assert (Z' : z = (r - 1) * (r + 1)) by lra. assert (I : (r - 1) * (r - 1) <= z * z).
  { rewrite Z'. assert (1 <= (r + 1) * (r + 1)) by nra. pose proof (Rle_0_sqr (r - 1)) as Sq. unfold Rsqr in Sq. nra. }
  split; nra.
Qed.
Section Fit.
Variables (P D Rr gh qh : R -> R) (b c delta Y : R).
Hypothesis HP : forall y, 0 <= y <= Y -> is_derive P y (D y).
Hypothesis HR : forall y, 0 <= y <= Y -> 1 - P y = y * Rr y /\ 1/4 <= Rr y <= 1 /\ -1/2 <= P y /\ D y <= 0.
Hypothesis Hg : forall y, 0 <= y <= Y -> Rabs (4 * (D y * D y) * (Rr y * (1 + P y)) - 1 - gh y) <= delta.
Hypothesis Hb : forall y, 0 <= y <= Y -> Rabs (gh y) <= b.
Hypothesis Hq : forall h, is_derive (fun h => h ^ 3 * qh (h * h)) h (3 / 2 * (h * h) * gh (h * h)).
Hypothesis Hc : forall y, 0 <= y <= Y -> Rabs (qh y) <= c.
Hypothesis Hbd : b + delta <= 1/2.
Let e := (b + delta) * (b + delta) / 2 + delta / 2.

Lemma fit_derive h : 0 < h -> h * h <= Y ->
  exists d, is_derive (fun h => 3 / 2 * psi (P (h * h)) - h ^ 3 - h ^ 3 * qh (h * h)) h d /\ Rabs d <= 3 * (h * h) * e.
Proof.
  intros Ph HY. assert (Ih : 0 <= h * h <= Y) by nra. destruct (HR _ Ih) as (E & R1 & P1 & D1). pose proof (Hg _ Ih) as G. pose proof (Hb _ Ih) as B.
  assert (Pb : -1 < P (h * h) < 1) by nra.
  set (y := h * h) in *. set (p := P y) in *. set (dp := D y) in *.
  exists (3 / 2 * (- 2 * sqrt (1 - p * p) * (2 * h * dp)) - 3 * (h * h) - 3 / 2 * (h * h) * gh y).
  split.
  - apply @is_derive_minus; [|exact (Hq h)]. apply @is_derive_minus.
    + apply is_derive_scal. evar_last.
      * apply (is_derive_comp psi (fun h => P (h * h))); [apply psi_derive; exact Pb|].
        apply (is_derive_comp P (fun h => h * h)); [apply HP; exact Ih|]. auto_derive; [exact I|reflexivity].
      * unfold scal; simpl; unfold mult; simpl. fold y p dp. ring.
    + evar_last; [apply is_derive_pow, is_derive_id|]. unfold one; simpl. ring.
  - set (g := 4 * (dp * dp) * (Rr y * (1 + p)) - 1) in *.
    assert (g - gh y = g - gh y) by reflexivity. apply Rabs_le_between in G. apply Rabs_le_between in B.
    assert (Gl : -1/2 <= g) by lra.
    assert (K : 1 - p * p = y * (Rr y * (1 + p))) by (replace (1 - p * p) with ((1 - p) * (1 + p)) by ring; rewrite E; ring).
    assert (S : sqrt (1 - p * p) * (- 2 * dp) = h * sqrt (1 + g)).
    { assert (Q : (sqrt (1 - p * p) * (- 2 * dp)) * (sqrt (1 - p * p) * (- 2 * dp)) = (h * sqrt (1 + g)) * (h * sqrt (1 + g))).
      { replace (sqrt (1 - p * p) * (-2 * dp) * (sqrt (1 - p * p) * (-2 * dp))) with (sqrt (1 - p * p) * sqrt (1 - p * p) * (4 * (dp * dp))) by ring.
        replace (h * sqrt (1 + g) * (h * sqrt (1 + g))) with (h * h * (sqrt (1 + g) * sqrt (1 + g))) by ring.
        rewrite !sqrt_sqrt by nra. rewrite K. unfold g. fold y. ring. }
      apply Rsqr_inj; [|apply Rmult_le_pos; [lra|apply sqrt_pos]|exact Q]. apply Rmult_le_pos; [apply sqrt_pos|nra]. }
    replace (3 / 2 * (-2 * sqrt (1 - p * p) * (2 * h * dp)) - 3 * (h * h) - 3 / 2 * (h * h) * gh y)
      with (3 * h * (sqrt (1 - p * p) * (- 2 * dp)) - 3 * (h * h) - 3 / 2 * (h * h) * gh y) by field.
    rewrite S. pose proof (sqrt_taylor g Gl) as T. set (r := sqrt (1 + g)) in *.
    replace (3 * h * (h * r) - 3 * (h * h) - 3 / 2 * (h * h) * gh y) with (3 * (h * h) * ((r - 1 - g / 2) + (g - gh y) / 2)) by field.
    rewrite Rabs_mult, (Rabs_right (3 * (h * h))) by nra. apply Rmult_le_compat_l; [nra|].
    assert (g * g <= (b + delta) * (b + delta)) by nra. apply Rabs_le. unfold e. lra.
Qed.
Lemma fit_close h : 0 < h -> h * h <= Y -> Rabs (3 / 2 * psi (P (h * h)) - h ^ 3) <= h ^ 3 * (c + 3 * e).
Proof.
  intros Ph HY. set (F := fun h => 3 / 2 * psi (P (h * h)) - h ^ 3 - h ^ 3 * qh (h * h)).
  assert (E0 : 0 <= e). { destruct (fit_derive h Ph HY) as (d & _ & B). pose proof (Rabs_pos d). assert (0 < h * h) by nra. nra. }
  assert (N : Rabs (F h) <= 3 * e * h ^ 3).
  { apply le_epsilon. intros eps He.
    set (h1 := Rmin (Rmin (h / 2) 1) (eps / (5 + c + 1))).
    pose proof (Hc 0 ltac:(split; [lra|nra])) as C0. pose proof (Rabs_pos (qh 0)) as C1.
    assert (H1 : 0 < h1) by (unfold h1; apply Rmin_glb_lt; [apply Rmin_glb_lt; lra|apply Rdiv_lt_0_compat; lra]).
    assert (H2 : h1 < h) by (eapply Rle_lt_trans; [unfold h1; eapply Rle_trans; [apply Rmin_l|apply Rmin_l]|]; lra).
    assert (H3 : h1 <= 1) by (unfold h1; eapply Rle_trans; [apply Rmin_l|apply Rmin_r]).
    assert (H4 : h1 * (5 + c + 1) <= eps).
    { apply Rle_trans with (eps / (5 + c + 1) * (5 + c + 1)); [apply Rmult_le_compat_r; [lra|apply Rmin_r]|]. right. field. lra. }
    assert (Der : forall x, h1 <= x <= h -> derivable_pt_lim F x (Derive F x) /\ Rabs (Derive F x) <= 3 * (x * x) * e).
    { intros x Bx. destruct (fit_derive x ltac:(lra) ltac:(nra)) as (d & Dd & Bd). assert (Ed : Derive F x = d) by (apply is_derive_unique; exact Dd).
      rewrite Ed. split; [apply is_derive_Reals; exact Dd|exact Bd]. }
    destruct (MVT_cor2 F (Derive F) h1 h H2) as (xi & Ex & Bx); [intros x Bx; apply Der; exact Bx|].
    assert (T1 : Rabs (F h1) <= h1 * (5 + c)).
    { assert (I1 : 0 <= h1 * h1 <= Y) by nra. destruct (HR _ I1) as (E & R1 & _ & _). pose proof (Hc _ I1) as Q.
      pose proof (psi_small (P (h1 * h1)) h1 ltac:(lra) ltac:(nra)) as S. apply Rabs_le_between in Q. unfold F.
      assert (0 < h1 ^ 3 <= h1). { split; [apply pow_lt; exact H1|]. simpl. assert (h1 * h1 <= 1) by nra. nra. }
      apply Rabs_le. split; nra. }
    assert (T2 : Rabs (F h - F h1) <= 3 * e * h ^ 3).
    { rewrite Ex, Rabs_mult, (Rabs_right (h - h1)) by lra. pose proof (proj2 (Der xi ltac:(lra))) as B. pose proof (Rabs_pos (Derive F xi)).
      apply Rle_trans with (3 * (h * h) * e * h); [|right; ring]. apply Rmult_le_compat; try lra. eapply Rle_trans; [exact B|]. apply Rmult_le_compat_r; [exact E0|]. nra. }
    replace (F h) with (F h1 + (F h - F h1)) by ring. eapply Rle_trans; [apply Rabs_triang|]. nra. }
  pose proof (Hc (h * h) ltac:(split; nra)) as Q. assert (P3 : 0 < h ^ 3) by (apply pow_lt; exact Ph).
  replace (3 / 2 * psi (P (h * h)) - h ^ 3) with (F h + h ^ 3 * qh (h * h)) by (unfold F; ring).
  eapply Rle_trans; [apply Rabs_triang|]. rewrite Rabs_mult, (Rabs_right (h ^ 3)) by lra. nra.
Qed.
End Fit.
(** from the volume (3/4)(w - sin w) back to the angle *)
Definition vol (w : R) : R := 3 / 4 * (w - sin w).
Lemma vol_lim c : derivable_pt_lim vol c (3 / 4 * (1 - cos c)).
Proof. apply is_derive_Reals. unfold vol. auto_derive; [exact I|ring]. Qed.
Lemma vol_mvt a b : a < b -> exists c, vol b - vol a = 3 / 4 * (1 - cos c) * (b - a) /\ a < c < b.
Proof. intros H. destruct (MVT_cor2 vol (fun c => 3 / 4 * (1 - cos c)) a b H) as (c & E & B); [intros c _; apply vol_lim|]. exists c. split; assumption. Qed.
Lemma vol_incr a b : 0 <= a -> a < b -> vol a <= vol b.
Proof. intros _ H. destruct (vol_mvt a b H) as (c & E & _). pose proof (COS_bound c). assert (0 <= 3 / 4 * (1 - cos c) * (b - a)) by nra. lra. Qed.
Lemma cos_lt_1 x : 0 < x <= PI -> cos x < 1.
Proof. intros H. rewrite <- cos_0. apply cos_decreasing_1; lra. Qed.
Lemma vol_pos x : 0 < x <= PI -> 0 < vol x.
Proof. intros H. unfold vol. pose proof (sin_lt_x x ltac:(lra)). lra. Qed.
Lemma x_cos_x x : 0 <= x <= PI -> x * cos x <= sin x.
Proof.
  intros [[H|<-] H1]; [|rewrite sin_0; lra].
  destruct (MVT_cor2 (fun x => sin x - x * cos x) (fun x => x * sin x) 0 x H) as (c & E & B).
  - intros c _. apply is_derive_Reals. auto_derive; [exact I|ring].
  - rewrite sin_0 in E. pose proof (sin_ge_0 c ltac:(lra) ltac:(lra)). assert (0 <= c * sin c * (x - 0)) by (apply Rmult_le_pos; [apply Rmult_le_pos|]; lra). lra.
Qed.
Lemma vol_le x : 0 <= x <= PI -> vol x <= 3 / 4 * (x * (1 - cos x)).
Proof. intros H. pose proof (x_cos_x x H). unfold vol. lra. Qed.
Lemma vol_inverse k w v : 0 <= k <= 1/100 -> 0 < w <= PI -> 0 <= v -> Rabs (vol v - vol w) <= k * vol w -> Rabs (v - w) <= 102/100 * k * w.
Proof.
  intros K W V H. pose proof (vol_pos w W) as Pw. pose proof (vol_le w ltac:(lra)) as Lw. apply Rabs_le_between in H.
  pose proof PI2_3_2. pose proof PI_4 as P4.
  destruct (Rtotal_order v w) as [L|[->|L]].
  - assert (V0 : 0 < v). { destruct V as [V|<-]; [exact V|]. exfalso. assert (Z0 : vol 0 = 0) by (unfold vol; rewrite sin_0; ring). rewrite Z0 in H. nra. }
    destruct (vol_mvt v w L) as (c & E & B). assert (Cv : cos c <= cos v) by (apply cos_decr_1; lra). pose proof (cos_lt_1 v ltac:(lra)) as C1.
    pose proof (vol_le v ltac:(lra)) as Lv.
    assert (S : 3 / 4 * (1 - cos v) * (w - v) <= k * vol w) by nra.
    assert (T : vol w * (99/100) <= vol v) by nra. assert (U : k * vol w <= 102/100 * k * vol v) by nra.
    assert (X : 3 / 4 * (1 - cos v) * (w - v) <= 3 / 4 * (1 - cos v) * (102/100 * k * v)) by nra.
    apply Rmult_le_reg_l in X; [|lra]. rewrite Rabs_left by lra. nra.
  - rewrite Rminus_eq_0, Rabs_R0. nra.
  - assert (C1 := cos_lt_1 w W).
    assert (Pi : 3 < PI < 3.15) by (pose proof SampProofs.PI_bounds; lra).
    assert (V2 : v < 32/10).
    { destruct (Rlt_dec v (32/10)); [assumption|]. exfalso. assert (vol (32/10) <= vol v) by (destruct (Req_EM_T v (32/10)) as [->|]; [lra|apply vol_incr; lra]).
      assert (vol w <= vol PI) by (destruct (Req_EM_T w PI) as [->|]; [lra|apply vol_incr; lra]).
      assert (A1 : vol PI = 3 / 4 * PI) by (unfold vol; rewrite sin_PI; ring). assert (A2 : 3/4 * (32/10) <= vol (32/10)).
      { unfold vol. assert (sin (32/10) <= 0); [|lra]. apply sin_le_0; lra. }
      pose proof SampProofs.PI_bounds. nra. }
    destruct (vol_mvt w v L) as (c & E & B).
    assert (Cc : 999/1000 * (1 - cos w) <= 1 - cos c).
    { destruct (Rle_dec c PI) as [I|I].
      - assert (cos c <= cos w) by (apply cos_decr_1; lra). lra.
      - pose proof SampProofs.PI_bounds. assert (cos c <= -998/1000); [|pose proof (COS_bound w); lra].
        replace c with ((c - PI) + PI) by ring. rewrite neg_cos. pose proof (cos_small (c - PI) ltac:(lra)) as [S _].
        assert (0 <= c - PI <= 6/100) by lra. generalize dependent (c - PI). intros z Hz S.
        assert (z ^ 6 <= z ^ 4). { replace (z ^ 6) with (z ^ 4 * z ^ 2) by ring. assert (0 <= z ^ 4) by (apply pow_le; lra). assert (z ^ 2 <= 1) by nra. nra. }
        assert (0 <= z ^ 4) by (apply pow_le; lra). assert (z ^ 2 <= 36/10000) by nra. lra. }
    assert (X : 3 / 4 * (999/1000 * (1 - cos w)) * (v - w) <= k * (3 / 4 * (w * (1 - cos w)))) by nra.
    assert (Y : 3 / 4 * (1 - cos w) * (999/1000 * (v - w)) <= 3 / 4 * (1 - cos w) * (k * w)) by lra.
    apply Rmult_le_reg_l in Y; [|lra]. rewrite Rabs_right by lra. assert (0 <= k * w) by nra. lra.
Qed.
(** perturbing a cosine *)
Lemma acos_lip mu x z : 0 < mu -> -1/2 <= x <= 1 - mu -> -1/2 <= z <= 1 - mu -> Rabs (acos x - acos z) <= Rabs (x - z) / sqrt (mu / 2).
Proof.
  intros M. assert (Sm : 0 < sqrt (mu / 2)) by (apply sqrt_lt_R0; lra).
  assert (W : forall x z, x < z -> -1/2 <= x <= 1 - mu -> -1/2 <= z <= 1 - mu -> Rabs (acos x - acos z) <= Rabs (x - z) / sqrt (mu / 2)).
  { clear x z. intros x z L X Z'. destruct (MVT_cor2 acos (fun c => -1 / sqrt (1 - c²)) x z L) as (c & E & B).
    - intros c Bc. assert (I : -1 < c < 1) by lra. pose proof (derive_pt_acos c I) as D. apply derive_pt_eq in D. exact D.
    - assert (Q : mu / 2 <= 1 - c²) by (unfold Rsqr; nra). assert (S : sqrt (mu / 2) <= sqrt (1 - c²)) by (apply sqrt_le_1_alt; exact Q).
      replace (acos x - acos z) with (1 / sqrt (1 - c²) * (z - x)) by (field_simplify in E; [|lra]; replace (acos x - acos z) with (- (acos z - acos x)) by ring; replace (acos z - acos x) with (-1 / sqrt (1 - c²) * (z - x)) by (symmetry; field_simplify; [|lra]; field_simplify in E; [|lra]; lra); field; lra).
      rewrite Rabs_mult, (Rabs_right (1 / sqrt (1 - c²))) by (apply Rle_ge; apply Rlt_le; apply Rdiv_lt_0_compat; lra).
      rewrite (Rabs_minus_sym z x). unfold Rdiv. rewrite Rmult_1_l, Rmult_comm. apply Rmult_le_compat_l; [apply Rabs_pos|]. apply Rinv_le_contravar; assumption. }
  intros X Z'. destruct (Rtotal_order x z) as [L|[->|L]].
  - apply W; assumption.
  - rewrite !Rminus_eq_0, Rabs_R0. unfold Rdiv. lra.
  - rewrite (Rabs_minus_sym (acos x)), (Rabs_minus_sym x). apply W; assumption.
Qed.
