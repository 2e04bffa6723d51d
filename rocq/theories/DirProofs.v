(** Rounding errors of the detector directions. *)
From Coq Require Import Permutation.
From Flocq Require Import Core.
From Verif Require Import Base BaseFacts QuatModel QuatSpec QuatProofs LaueModel SimSpec SimResample FpModel FpSpec FpProofs FpRound FpWit FpDis FpKnn FpProps UnitModel UnitProofs UnitProps DirModel KnnModel KnnSpec OriModel Se3Model ExpModel IndexModel GeomModel FitModel.
Local Open Scope R_scope.

Definition qv (v : vec) : quat := mkQ 0 (vx v) (vy v) (vz v).
Lemma qv_norm v : qnorm (qv v) = vnorm v.
Proof. unfold qnorm, vnorm. f_equal. unfold qdot, qv, vdot. cbn. ring. Qed.
Definition rows_ok (m : mat) : Prop := forall i, dotl (mrow m i) (mrow m i) <= 102/100.
Lemma vnorm_pos v : 0 <= vnorm v. Proof. apply sqrt_pos. Qed.
Lemma vcomp_norm v : Rabs (vx v) <= vnorm v /\ Rabs (vy v) <= vnorm v /\ Rabs (vz v) <= vnorm v.
Proof. destruct (comp_norm (qv v)) as (_ & A & B & C). rewrite qv_norm in *. exact (conj A (conj B C)). Qed.
Lemma row3 m i : exists a b c, mrow m i = [a; b; c].
Proof. destruct i as [|[|i]]; cbn; eauto. Qed.
Lemma row_abs m i p : rows_ok m -> dotl (map Rabs (mrow m i)) (map Rabs (vcomps p)) <= 101/100 * vnorm p.
Proof.
  intros H. specialize (H i). destruct (row3 m i) as [a [b [c E]]]. rewrite E in *. unfold dotl, vcomps in *. cbn [map] in *.
  pose proof (cs4 (Rabs a) (Rabs b) (Rabs c) 0 (Rabs (vx p)) (Rabs (vy p)) (Rabs (vz p)) 0) as K. rewrite !abs_sq in K.
  replace (vx p * vx p + vy p * vy p + vz p * vz p + 0 * 0) with (vdot p p) in K by (unfold vdot; ring). fold (vnorm p) in K.
  assert (S : sqrt (a * a + b * b + c * c + 0 * 0) <= 101/100). { rewrite <- (sqrt_square (101/100)) by lra. apply sqrt_le_1_alt. lra. }
  pose proof (vnorm_pos p). assert (sqrt (a * a + b * b + c * c + 0 * 0) * vnorm p <= 101/100 * vnorm p) by (apply Rmult_le_compat_r; assumption). lra.
Qed.

Section Near.
Variables (u h : R) (m : mat) (t p : vec).
Hypotheses (U : 0 <= u <= 1/1000) (H : 0 <= h) (M : rows_ok m).
Let D := vnorm p + vnorm t.
Hypothesis HD : 1000 * h <= u * D.
Lemma coord_err i ti y c : Rabs ti <= vnorm t -> fl_matmul (near u h) (mrow m i) (vcomps p) y -> near u h (y + ti) c -> Rabs (c - (dotl (mrow m i) (vcomps p) + ti)) <= 41/10 * u * D.
Proof.
  intros T Y C. destruct (row3 m i) as [a [b [e E]]]. pose proof (matmul_near u h (mrow m i) (vcomps p) y 3 (proj1 U) H ltac:(rewrite E; reflexivity) eq_refl Y) as K.
  pose proof (row_abs m i p M) as A. set (x := dotl (mrow m i) (vcomps p)) in *. set (A1 := dotl (map Rabs (mrow m i)) (map Rabs (vcomps p))) in *.
  assert (AX : Rabs x <= A1).
  { unfold x, A1. rewrite E. unfold dotl, vcomps. cbn [map]. rewrite <- !Rabs_mult. eapply Rle_trans; [apply Rabs_triang|]. apply Rplus_le_compat_l. eapply Rle_trans; [apply Rabs_triang|]. apply Rplus_le_compat_l. eapply Rle_trans; [apply Rabs_triang|]. rewrite Rabs_R0. lra. }
  pose proof (vnorm_pos p) as Pp. pose proof (vnorm_pos t) as Pt. pose proof (Rabs_pos x) as X0. assert (A0 : 0 <= A1) by lra.
  assert (Pw : (1 + u)^3 - 1 <= 3004/1000 * u) by (assert (u * u <= u / 1000) by nra; assert (u * u * u <= u / 1000) by nra; simpl; nra).
  assert (P3 : 0 <= (1 + u)^3) by (apply pow_le; lra).
  assert (K1 : ((1 + u)^3 - 1) * A1 <= 3004/1000 * u * A1) by (apply Rmult_le_compat_r; lra).
  assert (K2 : (1 + u)^3 * h <= 101/100 * h) by (apply Rmult_le_compat_r; lra).
  assert (UA : u * A1 <= u * (101/100 * vnorm p)) by (apply Rmult_le_compat_l; lra).
  assert (UD : u * D = u * vnorm p + u * vnorm t) by (unfold D; ring).
  assert (UP : 0 <= u * vnorm p) by (apply Rmult_le_pos; lra). assert (UT : 0 <= u * vnorm t) by (apply Rmult_le_pos; lra).
  assert (K3 : Rabs (y - x) <= 304/100 * (u * vnorm p) + 7/1000 * (u * D)) by (simpl INR in K; lra).
  unfold near in C. pose proof (Rabs_triang (y - x) (x + ti)) as T1. replace (y - x + (x + ti)) with (y + ti) in T1 by ring. pose proof (Rabs_triang x ti) as T2.
  assert (Y2 : Rabs (y + ti) <= 102/100 * D).
  { assert (304/100 * (u * vnorm p) + 7/1000 * (u * D) <= 4/1000 * D). { assert (u * vnorm p <= 1/1000 * vnorm p) by (apply Rmult_le_compat_r; lra). assert (u * vnorm t <= 1/1000 * vnorm t) by (apply Rmult_le_compat_r; lra). unfold D in *. lra. } unfold D in *. lra. }
  assert (UY : u * Rabs (y + ti) <= u * (102/100 * D)) by (apply Rmult_le_compat_l; lra).
  pose proof (Rabs_triang (c - (y + ti)) (y - x)) as T3. replace (c - (y + ti) + (y - x)) with (c - (x + ti)) in T3 by ring. lra.
Qed.
Lemma sum_close y c : fl_mapp (near u h) m p y -> fl_vadd (near u h) y t c -> v_within (41/10 * u * D) c (vadd (mapp m p) t).
Proof.
  intros (A & B & C) (X & Y & Z). destruct (vcomp_norm t) as (T1 & T2 & T3).
  pose proof (coord_err _ _ _ _ T1 A X) as K1. pose proof (coord_err _ _ _ _ T2 B Y) as K2. pose proof (coord_err _ _ _ _ T3 C Z) as K3.
  cbn [mrow vcomps dotl] in K1, K2, K3. unfold v_within, vadd, mapp. cbn [vx vy vz].
  split; [eapply Rle_trans; [|exact K1]; apply Req_le; f_equal; ring|]. split; [eapply Rle_trans; [|exact K2]; apply Req_le; f_equal; ring|]. eapply Rle_trans; [|exact K3]; apply Req_le; f_equal; ring.
Qed.
End Near.

(** three squares are four squares, one of them zero *)
Lemma embed (rd : R -> R -> Prop) v s : rd (0 * 0) 0 -> (forall x, fl_matmul rd (vcomps v) (vcomps v) x -> rd (0 + x) x) -> fl_matmul rd (vcomps v) (vcomps v) s -> fl_matmul rd (comps (qv v)) (comps (qv v)) s.
Proof.
  intros Z S F. pose proof (S s F) as Rs. destruct F as [e [T E]]. exists (Add (Mul (Num 0) (Num 0)) e). split.
  - cbn [comps qv qw qx qy qz combine map fst snd] in *. eapply (st_two _ [_] [_; _; _]); [apply Permutation_refl|apply st_one|exact T].
  - apply (ev_add _ _ _ 0 s); [apply (ev_mul _ _ _ 0 0); [apply ev_in|apply ev_in|exact Z]|exact E|exact Rs].
Qed.
Lemma near_refl u h x : 0 <= u -> 0 <= h -> near u h x x.
Proof. intros U H. unfold near. rewrite Rminus_diag_eq, Rabs_R0 by reflexivity. pose proof (Rabs_pos x). assert (0 <= u * Rabs x) by (apply Rmult_le_pos; assumption). lra. Qed.
(** a direction error from an absolute error *)
Lemma direction_close e c y : 0 <= e -> 0 < vnorm y -> 0 < vnorm c -> v_within e c y -> v_within (3 * e / vnorm y) (vscale (/ vnorm c) c) (vscale (/ vnorm y) y).
Proof.
  intros E Ny Nc (A & B & C). pose proof (qnorm_triangle_gap e (qv c) (qv y) E) as G. rewrite !qv_norm in G.
  assert (W : q_within e (qv c) (qv y)) by (unfold q_within, qv; cbn; rewrite Rminus_diag_eq, Rabs_R0 by reflexivity; repeat split; assumption). specialize (G W).
  destruct (vcomp_norm c) as (Cx & Cy & Cz).
  assert (X : forall a b, Rabs a <= vnorm c -> Rabs (a - b) <= e -> Rabs (/ vnorm c * a - / vnorm y * b) <= 3 * e / vnorm y).
  { intros a b La L. replace (/ vnorm c * a - / vnorm y * b) with ((a - b) * / vnorm y + (vnorm y - vnorm c) * (a / vnorm c) * / vnorm y) by (field; lra).
    eapply Rle_trans; [apply Rabs_triang|]. rewrite !Rabs_mult, (Rabs_pos_eq (/ vnorm y)) by (apply Rlt_le, Rinv_0_lt_compat; exact Ny).
    assert (Q : Rabs (a / vnorm c) <= 1). { unfold Rdiv. rewrite Rabs_mult, (Rabs_pos_eq (/ vnorm c)) by (apply Rlt_le, Rinv_0_lt_compat; exact Nc). apply (Rmult_le_reg_r (vnorm c)); [exact Nc|]. rewrite Rmult_assoc, Rinv_l by lra. lra. }
    rewrite Rabs_minus_sym in G. assert (K : Rabs (vnorm y - vnorm c) * Rabs (a / vnorm c) <= 2 * e * 1) by (apply Rmult_le_compat; try apply Rabs_pos; assumption).
    assert (I : 0 < / vnorm y) by (apply Rinv_0_lt_compat; exact Ny). unfold Rdiv. rewrite <- Rmult_plus_distr_r. apply Rmult_le_compat_r; lra. }
  unfold v_within, vscale. cbn [vx vy vz]. repeat split; apply X; assumption.
Qed.
Definition dirN (rd : R -> R -> Prop) (c : vec) (r : option vec) : Prop := exists n, fl_norm rd (qv c) n /\
  if Req_EM_T n 0 then r = None else exists d, r = Some d /\ rd (vx c / n) (vx d) /\ rd (vy c / n) (vy d) /\ rd (vz c / n) (vz d).
Lemma dirN_near u h c r : 0 <= u -> 0 <= h -> fl_direction (near u h) c r -> dirN (near u h) c r.
Proof.
  intros U H [s [n [F [R C]]]]. exists n. split; [|exact C]. exists s. split; [|exact R].
  apply embed; [rewrite Rmult_0_l; apply near_refl; lra|intros x _; rewrite Rplus_0_l; apply near_refl; lra|exact F].
Qed.
Lemma pz_le_aux a b : (a <= b)%Z -> powerRZ 2 a <= powerRZ 2 b. Proof. intros L. rewrite <- !bpow_pz. apply bpow_le. exact L. Qed.
Lemma double_self x : double x -> nearest_double x x.
Proof. intros X. split; [exact X|]. intros r' _. rewrite Rminus_diag_eq, Rabs_R0 by reflexivity. apply Rabs_pos. Qed.
Lemma matmul_double v s : fl_matmul nearest_double (vcomps v) (vcomps v) s -> double s.
Proof.
  intros [e [T E]]. assert (X : forall l e, sum_tree l e -> (forall x, List.In x l -> exists a b, x = Mul a b) -> forall s, ev nearest_double e s -> double s).
  { induction 1 as [e0|l l1 l2 a b P S1 IH1 S2 IH2]; intros D y V.
    - destruct (D e0 (or_introl eq_refl)) as [a [b ->]]. inversion V as [| | | |? ? ? ? ? ? ? N]; subst. exact (proj1 N).
    - inversion V as [| |? ? ? ? ? ? ? N| |]; subst. exact (proj1 N). }
  apply (X _ _ T); [|exact E]. intros x I. apply in_map_iff in I. destruct I as [p [<- _]]. eauto.
Qed.
Lemma dirN_nearest c r : fl_direction nearest_double c r -> dirN nearest_double c r.
Proof.
  intros [s [n [F [R C]]]]. exists n. split; [|exact C]. exists s. split; [|exact R].
  apply embed; [rewrite Rmult_0_l; apply double_self, double_0|intros x X; rewrite Rplus_0_l; apply double_self, (matmul_double c), X|exact F].
Qed.
Lemma dirN_doubles c r : powerRZ 2 (-500) <= vnorm c <= 2^60 -> dirN nearest_double c r -> dirN nearD c r.
Proof.
  intros L [n [F C]]. assert (L2 : powerRZ 2 (-500) <= qnorm (qv c) <= 2^60) by (rewrite qv_norm; exact L). exists n. pose proof (fl_norm_doubles (qv c) n L2 F) as F2. split; [exact F2|].
  destruct (Req_EM_T n 0) as [Z|Z]; [exact C|]. destruct C as [d [-> (A & B & D)]]. exists d. split; [reflexivity|]. destruct L as [L0 L]. pose proof (pz_pos (-500)) as P0. pose proof U53_val. pose proof H1075_val.
  destruct (eta_small _ (proj1 L2)) as [E2 E1].
  pose proof (norm_err U53 H1075 (qv c) ltac:(lra) ltac:(lra) ltac:(rewrite qv_norm; lra) E2 E1 n F2) as K. rewrite qv_norm in K. apply Rabs_le_inv in K. destruct (vcomp_norm c) as (cx & cy & cz).
  assert (nb : 1/2 * vnorm c <= n) by nra.
  assert (X : forall x y, Rabs x <= vnorm c -> nearest_double (x / n) y -> nearD (x / n) y).
  { intros x y Lx R. apply nearest_near; [|exact R]. apply (Rle_trans _ 2).
    - unfold Rdiv. rewrite Rabs_mult, (Rabs_pos_eq (/ n)) by (apply Rlt_le, Rinv_0_lt_compat; lra). apply (Rmult_le_reg_r n); [lra|]. rewrite Rmult_assoc, Rinv_l by lra. lra.
    - eapply Rle_trans; [|apply (cap 1 1); lia]. simpl. lra. }
  repeat split; apply X; assumption.
Qed.
Lemma dir_result u h c r : 0 <= u <= 1/1000 -> 0 <= h -> 0 < vnorm c -> 1000 * h <= u * (vnorm c * vnorm c) -> 1000 * h <= u * vnorm c ->
  dirN (near u h) c r -> exists d, r = Some d /\ v_within (5 * u + h) d (vscale (/ vnorm c) c).
Proof.
  intros U H N H2 H1 [n [FN C]].
  assert (E : qnorm (qv c) = vnorm c) by apply qv_norm. assert (NE : 0 < qnorm (qv c)) by (rewrite E; exact N).
  pose proof (norm_err u h (qv c) U H ltac:(rewrite E; exact N) ltac:(rewrite E; exact H2) ltac:(rewrite E; exact H1) n FN) as K.
  destruct (Req_EM_T n 0) as [Z|Z]; [exfalso; rewrite Z, E in K; apply Rabs_le_inv in K; nra|]. destruct C as [d [-> (A & B & C)]]. exists d. split; [reflexivity|].
  destruct (abs_quot (qv c) ltac:(rewrite E; exact N)) as (_ & Q1 & Q2 & Q3). rewrite E in Q1, Q2, Q3, K. cbn [qv qx qy qz] in Q1, Q2, Q3.
  assert (X : forall a b, Rabs (a / vnorm c) <= 1 -> near u h (a / n) b -> Rabs (b - / vnorm c * a) <= 5 * u + h).
  { intros a b L Q. pose proof (quot_err u h (qv c) U H NE ltac:(rewrite E; exact H1) n a b ltac:(rewrite E; exact K) Q) as J. rewrite E in J. replace (/ vnorm c * a) with (a / vnorm c) by (unfold Rdiv; ring).
    assert (5 * u * Rabs (a / vnorm c) <= 5 * u * 1) by (apply Rmult_le_compat_l; lra). lra. }
  unfold v_within, vscale. cbn [vx vy vz]. repeat split; apply X; assumption.
Qed.
(** the whole of apply_geometry *)
Definition reach (m : mat) (t p : vec) : R := (vnorm p + vnorm t) / vnorm (vadd (mapp m p) t).
Lemma mapp_norm m p : rows_ok m -> vnorm (mapp m p) <= 175/100 * vnorm p.
Proof.
  intros H. pose proof (vnorm_pos p) as N. assert (X : forall i, Rabs (dotl (mrow m i) (vcomps p)) <= 101/100 * vnorm p).
  { intros i. eapply Rle_trans; [|apply (row_abs m i p H)]. destruct (row3 m i) as [a [b [e E]]]. rewrite E. unfold dotl, vcomps. cbn [map]. rewrite <- !Rabs_mult.
    eapply Rle_trans; [apply Rabs_triang|]. apply Rplus_le_compat_l. eapply Rle_trans; [apply Rabs_triang|]. apply Rplus_le_compat_l. eapply Rle_trans; [apply Rabs_triang|]. rewrite Rabs_R0. lra. }
  pose proof (X 0%nat) as A. pose proof (X 1%nat) as B. pose proof (X 2%nat) as C. cbn [mrow vcomps dotl] in A, B, C.
  unfold vnorm at 1. rewrite <- (sqrt_square (175/100 * vnorm p)) by lra. apply sqrt_le_1_alt. unfold vdot, mapp. cbn [vx vy vz].
  assert (S : forall x, Rabs x <= 101/100 * vnorm p -> x * x <= (101/100 * vnorm p) * (101/100 * vnorm p)) by (intros x L; rewrite <- abs_sq; apply Rmult_le_compat; try apply Rabs_pos; exact L).
  apply S in A. apply S in B. apply S in C. rewrite !Rplus_0_r, <- !Rplus_assoc in A, B, C. set (w := vnorm p) in *. nra.
Qed.
Lemma vadd_norm a b : vnorm (vadd a b) <= vnorm a + vnorm b.
Proof.
  pose proof (vnorm_pos a). pose proof (vnorm_pos b). unfold vnorm at 1. rewrite <- (sqrt_square (vnorm a + vnorm b)) by lra. apply sqrt_le_1_alt.
  assert (Sa : vnorm a * vnorm a = vdot a a) by (apply sqrt_sqrt; unfold vdot; nra). assert (Sb : vnorm b * vnorm b = vdot b b) by (apply sqrt_sqrt; unfold vdot; nra).
  pose proof (cs4 (vx a) (vy a) (vz a) 0 (vx b) (vy b) (vz b) 0) as K.
  replace (vx a * vx a + vy a * vy a + vz a * vz a + 0 * 0) with (vdot a a) in K by (unfold vdot; ring). replace (vx b * vx b + vy b * vy b + vz b * vz b + 0 * 0) with (vdot b b) in K by (unfold vdot; ring).
  fold (vnorm a) in K. fold (vnorm b) in K. unfold vdot, vadd in *. cbn [vx vy vz]. nra.
Qed.
Lemma geometry_close u h m t p r : 0 <= u <= 1/1000 -> 0 <= h -> rows_ok m -> 0 < vnorm (vadd (mapp m p) t) -> 100 * u * reach m t p <= 1 ->
  2000 * h <= u * vnorm (vadd (mapp m p) t) -> 4000 * h <= u * (vnorm (vadd (mapp m p) t) * vnorm (vadd (mapp m p) t)) -> h <= u / 1000 ->
  (exists y c, fl_mapp (near u h) m p y /\ fl_vadd (near u h) y t c /\ dirN (near u h) c r) -> exists d, r = Some d /\ v_within (23 * u * reach m t p) d (vscale (/ vnorm (vadd (mapp m p) t)) (vadd (mapp m p) t)).
Proof.
  intros U H M Ny KU H1 H2 H3 [y [c [Y [C F]]]]. set (g := vadd (mapp m p) t) in *. set (D := vnorm p + vnorm t).
  pose proof (vnorm_pos p) as Np. pose proof (vnorm_pos t) as Nt.
  assert (ND : vnorm g <= 175/100 * D). { unfold g, D. eapply Rle_trans; [apply vadd_norm|]. pose proof (mapp_norm m p M). lra. }
  assert (KD : reach m t p * vnorm g = D) by (unfold reach; fold g D; field; lra). set (k := reach m t p) in *.
  assert (k1 : 57/100 <= k). { apply (Rmult_le_reg_r (vnorm g)); [exact Ny|]. rewrite KD. lra. }
  assert (uk : u * k <= 1/100) by lra. assert (HD : 1000 * h <= u * D). { assert (u * vnorm g <= u * (175/100 * D)) by (apply Rmult_le_compat_l; lra). lra. }
  pose proof (sum_close u h m t p U H M HD y c Y C) as W. fold D in W. fold g in W.
  assert (ED : 41/10 * u * D = 41/10 * (u * k) * vnorm g) by (rewrite <- KD; ring). rewrite ED in W. assert (uk0 : 0 <= u * k) by (apply Rmult_le_pos; lra).
  assert (E0 : 0 <= 41/10 * (u * k) * vnorm g) by (apply Rmult_le_pos; lra).
  assert (G : Rabs (vnorm c - vnorm g) <= 2 * (41/10 * (u * k) * vnorm g)).
  { rewrite <- !qv_norm. apply qnorm_triangle_gap; [rewrite qv_norm; exact E0|]. rewrite qv_norm. unfold q_within, qv. cbn. rewrite Rminus_diag_eq, Rabs_R0 by reflexivity. destruct W as (A & B & Z). repeat split; assumption. }
  apply Rabs_le_inv in G. assert (Nc : 9/10 * vnorm g <= vnorm c) by nra. assert (Nc0 : 0 < vnorm c) by lra.
  assert (C1 : 1000 * h <= u * vnorm c). { assert (u * (9/10 * vnorm g) <= u * vnorm c) by (apply Rmult_le_compat_l; lra). lra. }
  assert (C2 : 1000 * h <= u * (vnorm c * vnorm c)). { assert (1/2 * (vnorm g * vnorm g) <= vnorm c * vnorm c) by nra. assert (u * (1/2 * (vnorm g * vnorm g)) <= u * (vnorm c * vnorm c)) by (apply Rmult_le_compat_l; lra). lra. }
  destruct (dir_result u h c r U H Nc0 C2 C1 F) as [d [-> Wd]]. exists d. split; [reflexivity|].
  pose proof (direction_close _ c g E0 Ny Nc0 W) as Wc. replace (3 * (41/10 * (u * k) * vnorm g) / vnorm g) with (123/10 * (u * k)) in Wc by (field; lra).
  pose proof (v_within_trans _ _ _ _ _ Wd Wc) as (X & Y' & Z). assert (5 * u + h <= 90/10 * (u * k)) by nra. repeat split; lra.
Qed.

(** doubles: rows and points of moderate size *)
Lemma matmul_nearD m i p y : rows_ok m -> vnorm p <= 1000000 -> fl_matmul nearest_double (mrow m i) (vcomps p) y -> fl_matmul nearD (mrow m i) (vcomps p) y.
Proof.
  intros M L [e [T E]]. exists e. split; [exact T|]. specialize (M i). destruct (row3 m i) as [a [b [c Er]]]. rewrite Er in *. unfold dotl in M. destruct (vcomp_norm p) as (X & Y & Z).
  assert (B20 : 1000000 <= 2^20) by (simpl; lra).
  assert (W : forall x, x * x <= 102/100 -> Rabs x <= 2^20). { intros x Q. apply (Rle_trans _ 2); [|simpl; lra]. apply Rabs_le. nra. }
  assert (Ba : Rabs a <= 2^20) by (apply W; nra). assert (Bb : Rabs b <= 2^20) by (apply W; nra). assert (Bc : Rabs c <= 2^20) by (apply W; nra).
  destruct (tree_leaves (2^20) _ _ T) as [K Wi].
  { cbn [vcomps combine map fst snd List.In]. intros x [<-|[<-|[<-|[]]]]; cbn [leaves within]; repeat split; try assumption; lra. }
  apply (ev_doubles (2^20)); [lra|exact Wi| |exact E]. rewrite K. cbn [vcomps combine map length].
  eapply Rle_trans; [|apply (cap 12 24); lia]. apply pow_incr. split; [lra|simpl; lra].
Qed.
Lemma geometry_doubles m t p r : rows_ok m -> vnorm p <= 1000000 -> vnorm t <= 1000000 -> 1/1000000 <= vnorm (vadd (mapp m p) t) -> fl_geometry nearest_double m t p r ->
  exists y c, fl_mapp nearD m p y /\ fl_vadd nearD y t c /\ dirN nearD c r.
Proof.
  intros M Lp Lt Lg [y [c [(Y1 & Y2 & Y3) [(C1 & C2 & C3) F]]]]. exists y, c. pose proof U53_val as UV. pose proof H1075_val as HV. pose proof (vnorm_pos p) as Np. pose proof (vnorm_pos t) as Nt.
  assert (YN : fl_mapp nearD m p y) by (unfold fl_mapp; split; [|split]; apply matmul_nearD; assumption). split; [exact YN|].
  assert (BY : forall i z, fl_matmul nearD (mrow m i) (vcomps p) z -> Rabs z <= 3000000).
  { intros i z Q. pose proof (matmul_near U53 H1075 (mrow m i) (vcomps p) z 3 ltac:(lra) ltac:(lra) ltac:(destruct (row3 m i) as [? [? [? ->]]]; reflexivity) eq_refl Q) as K. pose proof (row_abs m i p M) as A.
    assert (AX : Rabs (dotl (mrow m i) (vcomps p)) <= dotl (map Rabs (mrow m i)) (map Rabs (vcomps p))).
    { destruct (row3 m i) as [a [b [e E]]]. rewrite E. unfold dotl, vcomps. cbn [map]. rewrite <- !Rabs_mult. eapply Rle_trans; [apply Rabs_triang|]. apply Rplus_le_compat_l. eapply Rle_trans; [apply Rabs_triang|]. apply Rplus_le_compat_l. eapply Rle_trans; [apply Rabs_triang|]. rewrite Rabs_R0. lra. }
    set (x := dotl (mrow m i) (vcomps p)) in *. set (A1 := dotl (map Rabs (mrow m i)) (map Rabs (vcomps p))) in *. pose proof (Rabs_pos x). pose proof D_val as D.
    assert (P3 : 1 <= (1 + U53)^3 <= 101/100). { split; [apply pow_R1_Rle; lra|]. assert ((1 + U53)^3 <= (1 + U53)^4) by (apply Rle_pow; [lra|lia]). lra. }
    assert (((1 + U53)^3 - 1) * A1 <= 1/100 * A1) by (apply Rmult_le_compat_r; lra). assert ((1 + U53)^3 * H1075 <= 101/100 * (1/10^30)) by (apply Rmult_le_compat; lra). simpl INR in K.
    pose proof (Rabs_triang (z - x) x) as T. replace (z - x + x) with z in T by ring. lra. }
  destruct YN as (N1 & N2 & N3). destruct (vcomp_norm t) as (T1 & T2 & T3).
  assert (big : forall a b z, Rabs a <= 3000000 -> Rabs b <= 1000000 -> nearest_double (a + b) z -> nearD (a + b) z).
  { intros a b z Ha Hb N. apply nearest_near; [|exact N]. eapply Rle_trans; [apply Rabs_triang|]. eapply Rle_trans; [|apply (cap 1 40); lia]. simpl. lra. }
  assert (CN : fl_vadd nearD y t c).
  { split; [apply big; [apply (BY 0%nat _ N1)|lra|exact C1]|]. split; [apply big; [apply (BY 1%nat _ N2)|lra|exact C2]|apply big; [apply (BY 2%nat _ N3)|lra|exact C3]]. }
  split; [exact CN|]. apply dirN_doubles; [|apply dirN_nearest; exact F].
  set (g := vadd (mapp m p) t) in *. assert (ND : vnorm g <= 175/100 * (vnorm p + vnorm t)) by (eapply Rle_trans; [apply vadd_norm|]; pose proof (mapp_norm m p M); lra).
  assert (HD : 1000 * H1075 <= U53 * (vnorm p + vnorm t)).
  { destruct (eta_small (1/1000000)) as [_ E1]; [apply (Rle_trans _ (powerRZ 2 (-20))); [apply pz_le_aux|simpl; lra]; lia|].
    assert (U53 * (1/1000000) <= U53 * (175/100 * (vnorm p + vnorm t))) by (apply Rmult_le_compat_l; lra). destruct (eta_small (1/100000000)) as [_ E3]; [apply (Rle_trans _ (powerRZ 2 (-30))); [apply pz_le_aux; lia|simpl; lra]|].
    assert (U53 * (1/100000000) <= U53 * (vnorm p + vnorm t)) by (apply Rmult_le_compat_l; lra). lra. }
  pose proof (sum_close U53 H1075 m t p ltac:(lra) ltac:(lra) M HD y c (conj N1 (conj N2 N3)) CN) as W. fold g in W.
  set (e := 41/10 * U53 * (vnorm p + vnorm t)) in *. assert (E0 : 0 <= e <= 1/100000000) by (unfold e; split; [apply Rmult_le_pos; lra|nra]).
  assert (G : Rabs (vnorm c - vnorm g) <= 2 * e).
  { rewrite <- !qv_norm. apply qnorm_triangle_gap; [lra|]. unfold q_within, qv. cbn. rewrite Rminus_diag_eq, Rabs_R0 by reflexivity. destruct W as (A & B & Z). repeat split; try assumption; lra. }
  apply Rabs_le_inv in G. split; [apply (Rle_trans _ (powerRZ 2 (-30))); [apply pz_le_aux; lia|simpl; lra]|]. assert (vnorm c <= 10000000) by lra. simpl. lra.
Qed.
