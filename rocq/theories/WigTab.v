(** The log-space tables hold Wigner's d functions *)
From Verif Require Import Base WigModel WigSpec WigIdx WigAlg.
Local Open Scope R_scope.

(** * Log-magnitudes *)
Definition lrep (a : fl) (x : R) : Prop := (0 < x /\ a = F (ln x)) \/ (x = 0 /\ a = NInf).
Lemma lrep_log x : 0 <= x -> lrep (flog (F x)) x.
Proof.
  intros H. unfold flog. destruct (Rlt_dec 0 x); [left; auto|]. destruct (Rlt_dec x 0); [lra|]. right. split; [lra|reflexivity].
Qed.
Lemma lrep_add a b x y : lrep a x -> lrep b y -> lrep (fadd a b) (x * y).
Proof.
  intros [[X ->]|[-> ->]] [[Y ->]|[-> ->]]; cbn.
  - left. split; [apply Rmult_lt_0_compat; auto|]. now rewrite ln_mult.
  - right. split; [ring|reflexivity].
  - right. split; [ring|reflexivity].
  - right. split; [ring|reflexivity].
Qed.
Lemma ln_sqrt_half x : 0 < x -> ln (sqrt x) = / 2 * ln x.
Proof.
  intros H. assert (E : ln (sqrt x * sqrt x) = ln x) by (rewrite sqrt_sqrt by lra; reflexivity).
  rewrite ln_mult in E by (apply sqrt_lt_R0; auto). lra.
Qed.
Lemma lrep_half a x : lrep a x -> lrep (fmul half a) (sqrt x).
Proof.
  intros [[X ->]|[-> ->]]; unfold half; cbn.
  - left. split; [apply sqrt_lt_R0; auto|]. now rewrite ln_sqrt_half.
  - right. rewrite sqrt_0. split; [reflexivity|]. unfold rinf. destruct (Rlt_dec 0 (/ 2)); [reflexivity|lra].
Qed.
Lemma lrep_sub a b x y : 0 < y -> lrep a x -> lrep b y -> lrep (fsub a b) (x / y).
Proof.
  intros Y [[X ->]|[-> ->]] [[_ ->]|[E _]]; try lra; unfold fsub; cbn.
  - left. split; [apply Rdiv_lt_0_compat; auto|]. unfold Rdiv. rewrite ln_mult, ln_Rinv; auto using Rinv_0_lt_compat.
  - right. split; [field; lra|reflexivity].
Qed.
Lemma lrep_neg a x : 0 < x -> lrep a x -> lrep (fmul (F (-1)) a) (/ x).
Proof.
  intros X [[_ ->]|[E _]]; [|lra]. cbn. left. split; [apply Rinv_0_lt_compat; auto|]. rewrite ln_Rinv by auto. f_equal. ring.
Qed.
Lemma lrep_pos a x : lrep a x -> 0 <= x.
Proof. intros [[X _]|[-> _]]; lra. Qed.
Lemma lrep_eq a x y : lrep a x -> x = y -> lrep a y. Proof. now intros ? <-. Qed.
Lemma lrep_fz z : (0 <= z)%Z -> lrep (flog (fz z)) (IZR z).
Proof. intros H. apply lrep_log. now apply (IZR_le 0). Qed.

(** * Signed cells *)
Definition enc (c : cell) (x : R) : Prop := exists y, lrep (fst c) y /\ x = (if snd c then y else - y).
Lemma enc_stands c x : enc c x <-> stands_for c x.
Proof.
  unfold enc, stands_for. destruct c as [a s]. cbn. split.
  - intros (y & [[Y ->]|[-> ->]] & ->); [rewrite exp_ln by auto|]; destruct s; ring.
  - destruct a; try tauto; intros H.
    + exists (exp r). split; [left; split; [apply exp_pos|now rewrite ln_exp]|]. destruct s; lra.
    + exists 0. split; [now right|]. destruct s; lra.
Qed.
Lemma enc_mul a s x b s' y : enc (a, s) x -> enc (b, s') y -> enc (fadd a b, negb (xorb s s')) (x * y).
Proof.
  intros (p & P & ->) (q & Q & ->). cbn in *. exists (p * q). split; [apply lrep_add; auto|]. destruct s, s'; cbn; ring.
Qed.
Lemma enc_mulc a x b s y : enc (b, s) y -> lrep a x -> enc (fadd a b, s) (x * y).
Proof. intros (q & Q & ->) P. exists (x * q). split; [apply lrep_add; auto|]. destruct s; cbn; ring. Qed.
Lemma enc_neg a s x : enc (a, s) x -> enc (a, negb s) (- x).
Proof. intros (p & P & ->). exists p. split; [exact P|]. destruct s; cbn; ring. Qed.
Lemma enc_real u : enc (flog (fabs (F u)), fge0 (F u)) u.
Proof.
  exists (Rabs u). cbn. split; [apply lrep_log, Rabs_pos|]. destruct (Rle_dec 0 u); [now rewrite Rabs_pos_eq|].
  rewrite Rabs_left by lra. ring.
Qed.
Lemma enc_value c x : enc c x -> fmul (fexp (fst c)) (sgnf (snd c)) = F x.
Proof.
  destruct c as [a s]. intros (y & [[Y E]|[-> E]] & ->); cbn in *; subst a; cbn; f_equal; [rewrite exp_ln by auto|]; destruct s; ring.
Qed.

Lemma exp_sum_enc z w : 0 < z -> enc (fadd (flog (fabs (F w))) (F (ln z)), fge0 (F w)) (w * z).
Proof.
  intros Hz. destruct (enc_real w) as (y & Y & E). cbn in Y, E. exists (y * z). split.
  - apply lrep_add; [exact Y|]. left. auto.
  - cbn. destruct (Rle_dec 0 w); rewrite E at 1; ring.
Qed.
Theorem logsumexp_enc la lb sa sb x y : enc (la, sa) x -> enc (lb, sb) y -> enc (signedlogsumexp la lb sa sb) (x + y).
Proof.
  intros (p & P & ->) (q & Q & ->). cbn in P, Q. cbn [snd].
  destruct P as [[P ->]|[-> ->]], Q as [[Q ->]|[-> ->]]; unfold signedlogsumexp.
  - set (mx := Rmax (ln p) (ln q)).
    assert (Z : exists z, 0 < z /\ mx = ln z) by (exists (exp mx); split; [apply exp_pos|now rewrite ln_exp]).
    destruct Z as (z & Hz & Ez). cbn [fmax fisinf negb fsub fneg fadd fexp fmul sgnf]. fold mx. rewrite Ez.
    assert (A : forall r, 0 < r -> exp (ln r + - ln z) = r / z).
    { intros r Hr. replace (ln r + - ln z) with (ln (r / z)). { rewrite exp_ln; auto. apply Rdiv_lt_0_compat; auto. }
      unfold Rdiv. rewrite ln_mult, ln_Rinv; auto using Rinv_0_lt_compat. }
    rewrite !A by auto.
    match goal with |- enc (fadd (flog (fabs (F ?w))) _, _) _ => pose proof (exp_sum_enc z w Hz) as E; replace ((if sa then p else - p) + (if sb then q else - q)) with (w * z); [exact E|] end.
    destruct sa, sb; field; lra.
  - cbn [fmax fisinf negb fsub fneg fadd fexp fmul sgnf].
    replace (exp (ln p + - ln p)) with 1 by (rewrite Rplus_opp_r, exp_0; reflexivity).
    match goal with |- enc (fadd (flog (fabs (F ?w))) _, _) _ => pose proof (exp_sum_enc p w P) as E; replace ((if sa then p else - p) + (if sb then 0 else - 0)) with (w * p); [exact E|] end.
    destruct sa, sb; ring.
  - cbn [fmax fisinf negb fsub fneg fadd fexp fmul sgnf].
    replace (exp (ln q + - ln q)) with 1 by (rewrite Rplus_opp_r, exp_0; reflexivity).
    match goal with |- enc (fadd (flog (fabs (F ?w))) _, _) _ => pose proof (exp_sum_enc q w Q) as E; replace ((if sa then 0 else - 0) + (if sb then q else - q)) with (w * q); [exact E|] end.
    destruct sa, sb; ring.
  - cbn [fmax fisinf negb fsub fneg fadd fexp fmul sgnf].
    exists 0. split.
    + right. split; [reflexivity|]. cbn.
      replace (0 * (2 * (if sa then 1 else 0) - 1) + 0 * (2 * (if sb then 1 else 0) - 1)) with 0 by (destruct sa, sb; ring).
      rewrite Rabs_R0. destruct (Rlt_dec 0 0); [lra|]. destruct (Rlt_dec 0 0); [lra|]. reflexivity.
    + destruct sa, sb; destruct (snd _); ring.
Qed.

(** * Coefficients *)
Lemma w_log_rep l m n : (0 <= n <= m)%Z -> (m <= l - 2)%Z ->
  lrep (w_log l m n) (/ IZR (2 * l - 2) / sqrt (IZR (2 * l + 2 * m) * IZR (2 * l - 2 * m) * IZR (2 * l + 2 * n) * IZR (2 * l - 2 * n))).
Proof.
  intros H H'. unfold w_log. apply lrep_sub.
  - apply sqrt_lt_R0. repeat apply Rmult_lt_0_compat; apply (IZR_lt 0); lia.
  - apply lrep_neg; [apply (IZR_lt 0); lia|apply lrep_fz; lia].
  - apply lrep_half. repeat apply lrep_add; apply lrep_fz; lia.
Qed.
Lemma v_log_rep l m n : (0 <= n <= m)%Z -> (m <= l - 2)%Z ->
  lrep (v_log l m n) (IZR (2 * l) * sqrt (IZR (2 * l + 2 * m - 2) * IZR (2 * l - 2 * m - 2) * IZR (2 * l + 2 * n - 2) * IZR (2 * l - 2 * n - 2))).
Proof.
  intros H H'. unfold v_log. apply lrep_add; [apply lrep_fz; lia|].
  apply lrep_half. repeat apply lrep_add; apply lrep_fz; lia.
Qed.

(** what the varying parts must provide *)
Record var_ok (V : variant) (L : nat) (beta : R) : Prop := {
  ok_seed : forall m n, (0 <= n <= m)%Z -> (m <= Z.of_nat L)%Z -> enc (v_seed V m n, true) (wigner m m n beta);
  ok_u1 : forall m n, (0 <= n <= m)%Z -> enc (v_u1 V m n) (u1_of m n (cos beta));
  ok_u : forall l m n, (0 <= n <= m)%Z -> (m <= l - 2)%Z -> enc (v_u V l m n) (u_of l m n (cos beta)) }.

Lemma rec_cell_ok V L beta l m n c1 c2 : var_ok V L beta -> (0 <= n <= m)%Z -> (m <= l - 2)%Z ->
  enc c1 (wigner (l - 1) m n beta) -> enc c2 (wigner (l - 2) m n beta) ->
  enc (rec_cell V (l, m, n) c1 c2) (wigner l m n beta).
Proof.
  intros HV H H' E1 E2. rewrite (wigner_rec l m n beta H H'). unfold rec_cell.
  pose proof (ok_u _ _ _ HV l m n H H') as U. destruct (v_u V l m n) as [ul us]. destruct c1 as [g1 s1], c2 as [g2 s2]. cbn [fst snd].
  apply logsumexp_enc.
  - unfold rec_a.
    set (w := / IZR (2 * l - 2) / sqrt (IZR (2 * l + 2 * m) * IZR (2 * l - 2 * m) * IZR (2 * l + 2 * n) * IZR (2 * l - 2 * n))).
    assert (A : enc (fadd (fadd (flog (fz (4 * l - 2))) ul) (w_log l m n), us) (IZR (4 * l - 2) * u_of l m n (cos beta) * w)).
    { pose proof (w_log_rep l m n H H') as W. fold w in W.
      pose proof (enc_mulc _ _ _ _ _ U (lrep_fz (4 * l - 2) ltac:(lia))) as B.
      destruct B as (q & Q & EQ). cbn in Q, EQ. exists (q * w). split; [apply lrep_add; auto|]. cbn. rewrite EQ. destruct us; ring. }
    replace (IZR (4 * l - 2) * u_of l m n (cos beta) / (IZR (2 * l - 2) * sqrt (IZR (2 * l + 2 * m) * IZR (2 * l - 2 * m) * IZR (2 * l + 2 * n) * IZR (2 * l - 2 * n))))
      with (IZR (4 * l - 2) * u_of l m n (cos beta) * w).
    2:{ unfold w. field. split; [|apply IZR_neq; lia]. apply Rgt_not_eq, sqrt_lt_R0. repeat apply Rmult_lt_0_compat; apply (IZR_lt 0); lia. }
    replace (negb (xorb s1 us)) with (negb (xorb us s1)) by (destruct us, s1; reflexivity).
    apply enc_mul; assumption.
  - replace (- (rec_b l m n * wigner (l - 2) m n beta)) with (rec_b l m n * - wigner (l - 2) m n beta) by ring.
    apply (enc_mulc _ _ _ _ _ (enc_neg _ _ _ E2)).
    eapply lrep_eq; [apply lrep_add; [apply w_log_rep|apply v_log_rep]; auto|]. unfold rec_b. field.
    split; [|apply IZR_neq; lia]. apply Rgt_not_eq, sqrt_lt_R0. repeat apply Rmult_lt_0_compat; apply (IZR_lt 0); lia.
Qed.
Lemma second_seed_ok V L beta l m n c : var_ok V L beta -> (0 <= n <= m)%Z -> enc c (wigner m m n beta) ->
  enc (second_seed V (l, m, n) c) (wigner (m + 1) m n beta).
Proof.
  intros HV H E. rewrite (wigner_seed2 m n beta H). unfold second_seed.
  pose proof (ok_u1 _ _ _ HV m n H) as U. destruct (v_u1 V m n) as [ul us]. destruct c as [g s]. cbn [fst snd].
  set (cf := sqrt (IZR (2 * m + 1) / (IZR (2 * (m + n) + 2) * IZR (2 * (m - n) + 2)))).
  assert (C : lrep (fmul half (fsub (fsub (flog (fz (2 * m + 1))) (flog (fz (2 * (m + n) + 2)))) (flog (fz (2 * (m - n) + 2))))) cf).
  { apply lrep_half. eapply lrep_eq.
    - apply lrep_sub; [|apply lrep_sub|]; try (apply lrep_fz; lia); apply (IZR_lt 0); lia.
    - field. split; apply IZR_neq; lia. }
  set (cl := fmul half _) in *.
  assert (E1 : enc (fadd g cl, s) (cf * wigner m m n beta)).
  { destruct E as (q & Q & EQ). cbn in Q, EQ. exists (q * cf). split; [apply lrep_add; auto|]. cbn. rewrite EQ. destruct s; ring. }
  replace (cf * u1_of m n (cos beta) * wigner m m n beta) with (cf * wigner m m n beta * u1_of m n (cos beta)) by ring.
  apply enc_mul; assumption.
Qed.

(** * Triangular lists *)
Definition rows {A} (K : nat) (f : nat -> nat -> A) : list A := flat_map (fun m => map (f m) (seq 0 (S m))) (seq 0 K).
Lemma rows_S {A} K (f : nat -> nat -> A) : rows (S K) f = rows K f ++ map (f K) (seq 0 (S K)).
Proof.
  unfold rows. transitivity (flat_map (fun m => map (f m) (seq 0 (S m))) (seq 0 K ++ [K])); [f_equal; apply (seq_S K 0)|].
  rewrite flat_map_app. cbn [flat_map]. now rewrite app_nil_r.
Qed.
Lemma rows_map {A B} (g : A -> B) K f : map g (rows K f) = rows K (fun m n => g (f m n)).
Proof. induction K as [|K IH]; [reflexivity|]. rewrite !rows_S, map_app, IH, map_map. reflexivity. Qed.
Lemma rows_length {A} K (f : nat -> nat -> A) : List.length (rows K f) = (K * (K + 1) / 2)%nat.
Proof.
  assert (E : (2 * List.length (rows K f) = K * (K + 1))%nat).
  { induction K as [|K IH]; [reflexivity|]. rewrite rows_S, app_length, map_length, seq_length. nia. }
  rewrite <- E, Nat.mul_comm, Nat.div_mul; lia.
Qed.
Lemma rows_combine {A B} K (f : nat -> nat -> A) (g : nat -> nat -> B) :
  combine (rows K f) (rows K g) = rows K (fun m n => (f m n, g m n)).
Proof.
  assert (app_combine : forall (x : list A) (y : list B) x' y', List.length x = List.length y ->
    combine (x ++ x') (y ++ y') = combine x y ++ combine x' y').
  { induction x as [|a x IH]; intros [|b y] x' y' H; try discriminate; [reflexivity|]. cbn. f_equal. apply IH. now injection H. }
  induction K as [|K IH]; [reflexivity|]. rewrite !rows_S, app_combine by now rewrite !rows_length. rewrite IH. f_equal.
  generalize (seq 0 (S K)). clear. induction l as [|a l IH]; cbn; congruence.
Qed.
Lemma rows_ext {A} K (f g : nat -> nat -> A) : (forall m n, (n <= m < K)%nat -> f m n = g m n) -> rows K f = rows K g.
Proof.
  induction K as [|K IH]; intros H; [reflexivity|]. rewrite !rows_S. f_equal; [apply IH; intros; apply H; lia|].
  apply map_ext_in. intros n Hn. apply in_seq in Hn. apply H. lia.
Qed.
Lemma rows_in {A} K (f : nat -> nat -> A) x : In x (rows K f) <-> exists m n, (n <= m < K)%nat /\ x = f m n.
Proof.
  unfold rows. rewrite in_flat_map. split.
  - intros (m & Hm & Hx). apply in_map_iff in Hx. destruct Hx as (n & <- & Hn). apply in_seq in Hm, Hn. exists m, n. split; [lia|auto].
  - intros (m & n & H & ->). exists m. split; [apply in_seq; lia|]. apply in_map_iff. exists n. split; [auto|apply in_seq; lia].
Qed.
Lemma drop_app {A} (x y : list A) k : List.length y = k -> drop_last k (x ++ y) = x.
Proof. intros <-. unfold drop_last. rewrite app_length, Nat.add_sub, firstn_app, Nat.sub_diag, firstn_all. cbn. apply app_nil_r. Qed.
Lemma rows_drop1 {A} K (f : nat -> nat -> A) : drop_last (S K) (rows (S K) f) = rows K f.
Proof. rewrite rows_S. apply drop_app. now rewrite map_length, seq_length. Qed.
Lemma rows_drop2 {A} L (f : nat -> nat -> A) : drop_last (2 * L + 1) (rows (S L) f) = rows (L - 1) f.
Proof.
  destruct L as [|L]; [reflexivity|]. rewrite !rows_S, <- app_assoc. replace (S L - 1)%nat with L by lia. apply drop_app.
  rewrite app_length, !map_length, !seq_length. lia.
Qed.
Lemma rows_firstn {A B} L (f : nat -> nat -> A) (g : nat -> nat -> B) : firstn (List.length (rows L g)) (rows (S L) f) = rows L f.
Proof. rewrite rows_length, <- (rows_length L f), rows_S, firstn_app, firstn_all, Nat.sub_diag. cbn. apply app_nil_r. Qed.

Definition zc (l m n : nat) : coord := (Z.of_nat l, Z.of_nat m, Z.of_nat n).
Lemma filter_flat_map {A B} (P : B -> bool) (g : A -> list B) l : filter P (flat_map g l) = flat_map (fun x => filter P (g x)) l.
Proof. induction l as [|a l IH]; [reflexivity|]. cbn. now rewrite filter_app, IH. Qed.
Lemma map_flat_map {A B C} (h : B -> C) (g : A -> list B) l : map h (flat_map g l) = flat_map (fun x => map h (g x)) l.
Proof. induction l as [|a l IH]; [reflexivity|]. cbn. now rewrite map_app, IH. Qed.
Lemma flat_map_map {A B C} (h : A -> B) (g : B -> list C) l : flat_map g (map h l) = flat_map (fun x => g (h x)) l.
Proof. induction l as [|a l IH]; [reflexivity|]. cbn. now rewrite IH. Qed.
Lemma flat_map_ext_in {A B} (f g : A -> list B) l : (forall x, In x l -> f x = g x) -> flat_map f l = flat_map g l.
Proof. induction l as [|a l IH]; intros H; [reflexivity|]. cbn. rewrite H, IH; auto; [intros; apply H; now right|now left]. Qed.
Lemma filter_map_c {A B} (P : B -> bool) (g : A -> B) l : filter P (map g l) = map g (filter (fun x => P (g x)) l).
Proof. induction l as [|a l IH]; [reflexivity|]. cbn. destruct (P (g a)); cbn; now rewrite IH. Qed.
Lemma filter_none {A} (P : A -> bool) l : (forall x, In x l -> P x = false) -> filter P l = [].
Proof. induction l as [|a l IH]; intros H; [reflexivity|]. cbn. rewrite H by now left. apply IH. intros; apply H; now right. Qed.
Lemma filter_all {A} (P : A -> bool) l : (forall x, In x l -> P x = true) -> filter P l = l.
Proof. induction l as [|a l IH]; intros H; [reflexivity|]. cbn. rewrite H by now left. f_equal. apply IH. intros; apply H; now right. Qed.
Lemma filter_le_seq L m : (m <= L)%nat -> filter (fun n => (Z.of_nat n <=? Z.of_nat m)%Z) (seq 0 (S L)) = seq 0 (S m).
Proof.
  intros H. replace (S L) with (S m + (L - m))%nat by lia. rewrite seq_app, filter_app.
  rewrite filter_all, filter_none; [apply app_nil_r| |].
  - intros x Hx. apply in_seq in Hx. apply Z.leb_gt. lia.
  - intros x Hx. apply in_seq in Hx. apply Z.leb_le. lia.
Qed.
Lemma mmn_rows L : mmn_coords L = rows (S L) (fun m n => zc m m n).
Proof.
  unfold mmn_coords, mesh, rows, arange. rewrite map_flat_map, filter_flat_map, flat_map_map. apply flat_map_ext_in.
  intros m Hm. apply in_seq in Hm. rewrite !map_map. rewrite filter_map_c. cbv beta iota.
  rewrite filter_le_seq by lia. reflexivity.
Qed.
Lemma mp1_rows L : mp1_mn_coords L = rows L (fun m n => zc (S m) m n).
Proof.
  unfold mp1_mn_coords, mesh, rows, arange. rewrite map_flat_map, filter_flat_map, flat_map_map.
  cbn [seq flat_map]. rewrite !map_map, filter_map_c, filter_none. 2:{ intros; cbn. rewrite Bool.andb_false_r. reflexivity. }
  match goal with |- _ ++ ?x = ?y => change (x = y) end. rewrite <- (seq_shift L 0), flat_map_map at 1. apply flat_map_ext_in. intros m Hm. apply in_seq in Hm.
  rewrite !map_map, filter_map_c. cbv beta iota.
  change (seq 0 (S L)) with (0%nat :: seq 1 L). cbn [filter]. 
  replace ((Z.of_nat 0 - 1 <=? Z.of_nat (S m) - 1)%Z && (0 <=? Z.of_nat (S m) - 1)%Z && (0 <=? Z.of_nat 0 - 1)%Z) with false
    by (rewrite Bool.andb_false_r; reflexivity).
  rewrite <- seq_shift, filter_map_c, map_map.
  destruct L as [|L]; [lia|].
  erewrite filter_ext with (g := fun n => (Z.of_nat n <=? Z.of_nat m)%Z).
  - rewrite filter_le_seq by lia. change (0%nat :: seq 1 m) with (seq 0 (S m)). apply map_ext. intros n. unfold zc. repeat f_equal; lia.
  - intros n. replace (0 <=? Z.of_nat (S m) - 1)%Z with true by (symmetry; apply Z.leb_le; lia).
    replace (0 <=? Z.of_nat (S n) - 1)%Z with true by (symmetry; apply Z.leb_le; lia). rewrite !Bool.andb_true_r.
    apply Bool.eq_true_iff_eq. rewrite !Z.leb_le. lia.
Qed.

(** * Tables *)
(** a property W of the cells that the seeds have and that the recursion hands on *)
Record w_ok (V : variant) (L : nat) (W : Z -> Z -> Z -> cell -> Prop) : Prop := {
  w_seed : forall m n, (0 <= n <= m)%Z -> (m <= Z.of_nat L)%Z -> W m m n (v_seed V m n, true);
  w_second : forall m n c, (0 <= n <= m)%Z -> W m m n c -> W (m + 1)%Z m n (second_seed V (m + 1, m, n)%Z c);
  w_rec : forall l m n c1 c2, (0 <= n <= m)%Z -> (m <= l - 2)%Z -> W (l - 1)%Z m n c1 -> W (l - 2)%Z m n c2 ->
            W l m n (rec_cell V (l, m, n) c1 c2) }.
Definition good (L : nat) (W : Z -> Z -> Z -> cell -> Prop) (j : Z) (c : cell) : Prop :=
  forall l m n : Z, adm (l, m, n) -> (l <= Z.of_nat L)%Z -> index_from_coords (l, m, n) = j -> W l m n c.
Lemma put_inv (P : Z -> cell -> Prop) : forall ivs t, (forall iv, In iv ivs -> P (fst iv) (snd iv)) ->
  forall j, In j (map fst ivs) \/ P j (t j) -> P j (fold_left put ivs t j).
Proof.
  induction ivs as [|iv ivs IH]; intros t HP j Hj; cbn; [destruct Hj as [[]|]; auto|].
  apply IH; [intros; apply HP; now right|]. unfold put at 1.
  destruct (Z.eqb_spec j (fst iv)) as [->|N].
  - right. apply HP. now left.
  - destruct Hj as [[E|Hj]|Hj]; [congruence|now left|now right].
Qed.
Lemma good_at L (W : Z -> Z -> Z -> cell -> Prop) l m n c : adm (l, m, n) -> W l m n c -> good L W (index_from_coords (l, m, n)) c.
Proof.
  intros A E l' m' n' A' _ Ei. apply index_inj in Ei; auto. now injection Ei as -> -> ->.
Qed.
Definition tsize (L : nat) : Z := tet6 (Z.of_nat L + 1).
Lemma in_range_ok L l m n : adm (l, m, n) -> (l <= Z.of_nat L)%Z -> in_range (tsize L) (index_from_coords (l, m, n)) = true.
Proof.
  intros A H. pose proof (index_block l m n A) as [_ B]. destruct A as [A1 A2]. pose proof (tet6_nonneg l ltac:(lia)).
  pose proof (tet6_mono (l + 1) (Z.of_nat L + 1) ltac:(lia)). unfold in_range, tsize.
  apply andb_true_intro. split; [apply Z.leb_le|apply Z.ltb_lt]; lia.
Qed.
Lemma forallb_rows {A} (P : A -> bool) K f : (forall m n, (n <= m < K)%nat -> P (f m n) = true) -> forallb P (rows K f) = true.
Proof. intros H. apply forallb_forall. intros x Hx. apply rows_in in Hx. destruct Hx as (m & n & Hmn & ->). auto. Qed.

Definition idx (l m n : nat) : Z := index_from_coords (zc l m n).
Lemma adm_zc l m n : (n <= m)%nat -> (m <= l)%nat -> adm (zc l m n).
Proof. intros. unfold adm, zc. lia. Qed.
(** all cells of degree at most m + 1 + s are right *)
Definition inv (L : nat) (W : Z -> Z -> Z -> cell -> Prop) (s : nat) (t : Z -> cell) : Prop :=
  forall l m n : nat, (n <= m)%nat -> (m <= l)%nat -> (l <= L)%nat -> (l <= m + 1 + s)%nat -> good L W (idx l m n) (t (idx l m n)).

Lemma idx_m1 l m n : (idx (S l) m n - Z.of_nat (S l) * (Z.of_nat (S l) + 1) / 2 = idx l m n)%Z.
Proof.
  unfold idx, zc. rewrite !index_eq. change (Z.of_nat (S l) * (Z.of_nat (S l) + 1) / 2)%Z with (tri2 (Z.of_nat (S l))).
  replace (Z.of_nat (S l)) with (Z.of_nat l + 1)%Z by lia. rewrite tet6_succ. lia.
Qed.
Lemma idx_m2 l m n : (idx (S (S l)) m n - Z.of_nat (S (S l)) * Z.of_nat (S (S l)) = idx l m n)%Z.
Proof.
  unfold idx, zc. rewrite !index_eq. replace (Z.of_nat (S (S l))) with (Z.of_nat l + 1 + 1)%Z by lia. rewrite !tet6_succ.
  pose proof (tri2_eq (Z.of_nat l + 1)). pose proof (tri2_eq (Z.of_nat l + 1 + 1)). nia.
Qed.

Lemma rec_step_ok V L W s t : w_ok V L W -> (s < L - 1)%nat -> inv L W s t ->
  exists t', rec_step V L (tsize L) (t, rows (L - 1 - s) (fun m n => zc (m + 2 + s) m n), rows (L - 1 - s) (fun m n => idx (m + 2 + s) m n)) s
    = Some (t', rows (L - 1 - S s) (fun m n => zc (m + 2 + S s) m n), rows (L - 1 - S s) (fun m n => idx (m + 2 + S s) m n))
  /\ inv L W (S s) t'.
Proof.
  intros HV Hs HI. unfold rec_step.
  rewrite !rows_combine, !rows_map.
  assert (E1 : rows (L - 1 - s) (fun m n => let '((l, _, _), i) := (zc (m + 2 + s) m n, idx (m + 2 + s) m n) in (i - l * (l + 1) / 2)%Z)
    = rows (L - 1 - s) (fun m n => idx (m + 1 + s) m n)).
  { apply rows_ext. intros m n _. unfold zc at 1. cbv beta iota. replace (m + 2 + s)%nat with (S (m + 1 + s)) by lia. apply idx_m1. }
  assert (E2 : rows (L - 1 - s) (fun m n => let '((l, _, _), i) := (zc (m + 2 + s) m n, idx (m + 2 + s) m n) in (i - l * l)%Z)
    = rows (L - 1 - s) (fun m n => idx (m + s) m n)).
  { apply rows_ext. intros m n _. unfold zc at 1. cbv beta iota. replace (m + 2 + s)%nat with (S (S (m + s))) by lia. apply idx_m2. }
  rewrite E1, E2. unfold gather.
  rewrite !forallb_rows.
  2:{ intros m n H. apply in_range_ok; [apply (adm_zc (m + s)); lia|lia]. }
  2:{ intros m n H. apply in_range_ok; [apply (adm_zc (m + 1 + s)); lia|lia]. }
  rewrite !rows_map, !rows_combine, !rows_map. unfold scatter.
  rewrite forallb_rows. 2:{ intros m n H. apply in_range_ok; [apply (adm_zc (m + 2 + s)); lia|lia]. }
  rewrite rows_combine.
  assert (K : (L - 1 - s = S (L - 1 - S s))%nat) by lia.
  rewrite K, !rows_drop1, !rows_map, rows_combine, rows_map.
  eexists. split.
  - f_equal. f_equal; [f_equal|].
    + apply rows_ext. intros m n _. unfold zc. f_equal. f_equal. lia.
    + apply rows_ext. intros m n _. unfold zc. cbv beta iota.
      replace (Z.of_nat (m + 2 + s) + 1)%Z with (Z.of_nat (S (m + 2 + s))) by lia.
      replace (m + 2 + S s)%nat with (S (m + 2 + s)) by lia. pose proof (idx_m1 (m + 2 + s) m n) as E. lia.
  - intros l m n H1 H2 H3 H4. apply put_inv.
    + intros iv Hiv. apply rows_in in Hiv. destruct Hiv as (m' & n' & H & ->). cbn [fst snd].
      unfold zc. cbv beta iota. unfold idx, zc. apply good_at; [unfold adm; lia|].
      apply (w_rec _ _ _ HV); auto; try lia.
      * replace (Z.of_nat (m' + 2 + s) - 1)%Z with (Z.of_nat (m' + 1 + s)) by lia.
        apply (HI (m' + 1 + s)%nat m' n'); try lia; unfold adm; try lia; reflexivity.
      * replace (Z.of_nat (m' + 2 + s) - 2)%Z with (Z.of_nat (m' + s)) by lia.
        apply (HI (m' + s)%nat m' n'); try lia; unfold adm; try lia; reflexivity.
    + destruct (Nat.eq_dec l (m + 2 + s)) as [->|N].
      * left. rewrite rows_map. cbn [fst]. apply rows_in. exists m, n. split; [lia|reflexivity].
      * right. apply HI; lia.
Qed.
Lemma rec_loop_ok V L W : w_ok V L W -> forall k s t, (s + k = L - 1)%nat -> inv L W s t ->
  exists t' cs is, rec_loop V L (tsize L) (t, rows (L - 1 - s) (fun m n => zc (m + 2 + s) m n), rows (L - 1 - s) (fun m n => idx (m + 2 + s) m n)) (seq s k)
    = Some (t', cs, is) /\ inv L W (s + k) t'.
Proof.
  intros HV. induction k as [|k IH]; intros s t H HI.
  - exists t. do 2 eexists. split; [reflexivity|]. now rewrite Nat.add_0_r.
  - cbn [seq rec_loop]. destruct (rec_step_ok V L W s t HV ltac:(lia) HI) as (t1 & -> & H1).
    destruct (IH (S s) t1 ltac:(lia) H1) as (t2 & cs & is & E & H2). exists t2, cs, is. split; [exact E|].
    now replace (s + S k)%nat with (S s + k)%nat by lia.
Qed.

Theorem table_w V L W junk : w_ok V L W ->
  exists tab, wigner_table V (tsize L) junk L = Some tab /\ Z.of_nat (List.length tab) = tsize L /\
   forall l m n : Z, adm (l, m, n) -> (l <= Z.of_nat L)%Z ->
     exists c, W l m n c /\ nth_error tab (Z.to_nat (index_from_coords (l, m, n))) = Some (fmul (fexp (fst c)) (sgnf (snd c))).
Proof.
  intros HV. unfold wigner_table. rewrite mmn_rows, mp1_rows, !rows_map. cbn [map].
  unfold scatter at 1. rewrite forallb_rows. 2:{ intros m n H. apply in_range_ok; [apply (adm_zc m); lia|lia]. }
  rewrite rows_combine. set (t1 := fold_left put _ _).
  assert (G1 : forall m n : nat, (n <= m)%nat -> (m <= L)%nat -> good L W (idx m m n) (t1 (idx m m n))).
  { intros m n H H'. apply put_inv.
    - intros iv Hiv. apply rows_in in Hiv. destruct Hiv as (m' & n' & Hm & ->). cbn [fst snd]. apply good_at; [unfold adm; lia|].
      apply (w_seed _ _ _ HV); lia.
    - left. rewrite rows_map. apply rows_in. exists m, n. split; [lia|reflexivity]. }
  clearbody t1.
  rewrite rows_firstn. unfold gather. rewrite forallb_rows. 2:{ intros m n H. apply in_range_ok; [apply (adm_zc m); lia|lia]. }
  rewrite rows_map, rows_combine, rows_map. unfold scatter.
  rewrite forallb_rows. 2:{ intros m n H. apply in_range_ok; [apply (adm_zc (S m)); lia|lia]. }
  rewrite rows_combine. set (t2 := fold_left put _ _).
  assert (G2 : inv L W 0 t2).
  { intros l m n H1 H2 H3 H4. apply put_inv.
    - intros iv Hiv. apply rows_in in Hiv. destruct Hiv as (m' & n' & Hm & ->). cbn [fst snd]. unfold zc. apply good_at; [unfold adm; lia|].
      replace (Z.of_nat (S m')) with (Z.of_nat m' + 1)%Z by lia. apply (w_second _ _ _ HV); [lia|].
      apply (G1 m' n'); try lia; unfold adm; try lia; reflexivity.
    - destruct (Nat.eq_dec l m) as [->|N].
      + right. apply G1; lia.
      + left. rewrite rows_map. apply rows_in. exists m, n. split; [lia|]. cbn [fst]. replace l with (S m) by lia. reflexivity. }
  clearbody t2.
  rewrite !rows_drop2, !rows_map, rows_combine, rows_map.
  replace (rows (L - 1) (fun m n : nat => let '(l, m0, n0) := zc m m n in ((l + 2)%Z, m0, n0)))
    with (rows (L - 1 - 0) (fun m n => zc (m + 2 + 0) m n)).
  2:{ rewrite Nat.sub_0_r. apply rows_ext. intros m n _. unfold zc. f_equal. f_equal. lia. }
  match goal with |- context [rec_loop V L _ (t2, _, ?x) _] =>
    replace x with (rows (L - 1 - 0) (fun m n => idx (m + 2 + 0) m n)) end.
  2:{ rewrite Nat.sub_0_r. apply rows_ext. intros m n _. unfold zc at 1. cbv beta iota.
      pose proof (idx_m2 m m n) as E. replace (m + 2 + 0)%nat with (S (S m)) by lia.
      replace (Z.of_nat m + 2)%Z with (Z.of_nat (S (S m))) by lia. unfold idx in *. lia. }
  destruct (rec_loop_ok V L W HV (L - 1) 0 t2 ltac:(lia) G2) as (t & cs & is & E & HI). rewrite E.
  eexists. split; [reflexivity|].
  assert (TP : (0 <= tsize L)%Z) by (apply tet6_nonneg; lia).
  split. { unfold arange. rewrite !map_length, seq_length. lia. }
  intros l m n A Hl. pose proof A as [A1 A2].
  pose proof (in_range_ok L l m n A Hl) as RG. apply andb_prop in RG. destruct RG as [RG1 RG2].
  apply Z.leb_le in RG1. apply Z.ltb_lt in RG2.
  unfold arange. rewrite map_map. set (g := fun x : nat => _).
  assert (NE : nth_error (map g (seq 0 (Z.to_nat (tsize L)))) (Z.to_nat (index_from_coords (l, m, n))) = Some (g (Z.to_nat (index_from_coords (l, m, n))))).
  { apply map_nth_error. rewrite nth_error_nth' with (d := 0%nat) by (rewrite seq_length; lia). rewrite seq_nth by lia. reflexivity. }
  rewrite NE. unfold g. rewrite Z2Nat.id by lia. eexists. split; [|reflexivity].
  assert (I : index_from_coords (l, m, n) = idx (Z.to_nat l) (Z.to_nat m) (Z.to_nat n)).
  { unfold idx, zc. rewrite !Z2Nat.id by lia. reflexivity. }
  rewrite I. apply (HI (Z.to_nat l) (Z.to_nat m) (Z.to_nat n)); try lia; auto.
Qed.

Theorem table_ok V L beta junk : var_ok V L beta ->
  exists tab, wigner_table V (tsize L) junk L = Some tab /\ Z.of_nat (List.length tab) = tsize L /\
   forall l m n : Z, adm (l, m, n) -> (l <= Z.of_nat L)%Z ->
     nth_error tab (Z.to_nat (index_from_coords (l, m, n))) = Some (F (wigner l m n beta)).
Proof.
  intros HV. destruct (table_w V L (fun l m n c => enc c (wigner l m n beta)) junk) as (tab & E & EL & H).
  - constructor.
    + apply (ok_seed _ _ _ HV).
    + intros. eapply second_seed_ok; eauto.
    + intros. eapply rec_cell_ok; eauto.
  - exists tab. split; [exact E|]. split; [exact EL|]. intros l m n A Hl. destruct (H l m n A Hl) as (c & W & ->).
    f_equal. now apply enc_value.
Qed.

(** * The three variants *)
Lemma nth_map_seq {A} (f : nat -> A) d n i : (i < n)%nat -> nth i (map f (seq 0 n)) d = f i.
Proof. intros H. rewrite nth_indep with (d' := f 0%nat) by (rewrite map_length, seq_length; lia). rewrite map_nth, seq_nth by lia. reflexivity. Qed.
Lemma lgamma_rep z : (0 <= z)%Z -> lrep (lgamma (z + 1)) (zfact z).
Proof. intros H. left. split; [apply zfact_pos|]. unfold lgamma, zfact. replace (z + 1 - 1)%Z with z by lia. reflexivity. Qed.
Lemma seed_norm_rep m n : (0 <= n <= m)%Z -> lrep (seed_norm m n) (sqrt (zfact (2 * m) / (zfact (m + n) * zfact (m - n)))).
Proof.
  intros H. unfold seed_norm. apply lrep_half. eapply lrep_eq.
  - apply lrep_sub; [|apply lrep_sub|]; try (apply lgamma_rep; lia); apply zfact_pos.
  - pose proof (zfact_pos (m + n)). pose proof (zfact_pos (m - n)). field. lra.
Qed.
Lemma ln_pow_INR x k : 0 < x -> ln (x ^ k) = INR k * ln x.
Proof.
  intros H. induction k as [|k IH]; [cbn; rewrite ln_1; ring|]. cbn [pow]. rewrite ln_mult, IH, S_INR by (auto; apply pow_lt; auto). ring.
Qed.
Lemma pow_rep x k : 0 < x -> lrep (fmul (F (INR k)) (flog (F x))) (x ^ k).
Proof.
  intros H. cbn. destruct (Rlt_dec 0 x); [|lra]. left. split; [apply pow_lt; auto|]. cbn. now rewrite ln_pow_INR.
Qed.
Lemma trig_seed_ok beta L m n : 0 < beta < PI -> (0 <= n <= m)%Z -> (m <= Z.of_nat L)%Z ->
  enc (fadd (fadd (seed_norm m n) (nth (Z.to_nat (m + n)) (log_powers_cos beta (2 * (L + 1))) NaN)) (nth (Z.to_nat (m - n)) (log_powers_sin beta (2 * (L + 1))) NaN), true)
      (wigner m m n beta).
Proof.
  intros HB H H'. exists (wigner m m n beta). split; [|reflexivity]. cbn [fst]. rewrite (wigner_seed m n beta H), <- Rmult_assoc.
  unfold log_powers_cos, log_powers_sin. rewrite !nth_map_seq by lia.
  apply lrep_add; [apply lrep_add; [apply seed_norm_rep; auto|]|]; apply pow_rep.
  - apply cos_gt_0; lra.
  - apply sin_gt_0; lra.
Qed.
Lemma lt_ok beta L : 0 < beta < PI -> var_ok (lt_variant beta L) L beta.
Proof.
  intros HB. assert (T : 2 * sin (beta / 2) ^ 2 = 1 - cos beta). { pose proof (half_angle beta) as [E1 E2]. cbn. lra. }
  constructor; cbn [lt_variant v_seed v_u1 v_u].
  - intros m n H H'. apply trig_seed_ok; auto.
  - intros m n H. rewrite T. replace (u1_of m n (cos beta)) with (IZR (2 * m - 2 * n + 2) - IZR (2 * m + 2) * (1 - cos beta)); [apply enc_real|].
    unfold u1_of. repeat rewrite ?plus_IZR, ?minus_IZR, ?mult_IZR. ring.
  - intros l m n H H'. rewrite T.
    replace (u_of l m n (cos beta)) with (IZR (2 * l * (2 * l - 2)) - IZR (4 * m * n) - IZR (2 * l * (2 * l - 2)) * (1 - cos beta)); [apply enc_real|].
    unfold u_of. ring.
Qed.
Lemma gt_ok beta L : 0 < beta < PI -> var_ok (gt_variant beta L) L beta.
Proof.
  intros HB. constructor; cbn [gt_variant v_seed v_u1 v_u].
  - intros m n H H'. apply trig_seed_ok; auto.
  - intros m n H. apply enc_real.
  - intros l m n H H'. apply enc_real.
Qed.
Lemma eq_ok L : var_ok (eq_variant L) L (PI / 2).
Proof.
  constructor; cbn [eq_variant v_seed v_u1 v_u].
  - intros m n H H'. exists (wigner m m n (PI / 2)). split; [|reflexivity]. cbn [fst]. rewrite (wigner_seed m n (PI / 2) H).
    unfold log_powers_of_half. rewrite nth_map_seq by lia. apply lrep_add; [apply seed_norm_rep; auto|].
    eapply lrep_eq.
    + replace (fmul (flog (F (/ 2))) (F (INR (Z.to_nat m)))) with (fmul (F (INR (Z.to_nat m))) (flog (F (/ 2)))).
      * apply pow_rep. lra.
      * cbn. destruct (Rlt_dec 0 (/ 2)); [cbn; f_equal; ring|lra].
    + replace (PI / 2 / 2) with (PI / 4) by field. rewrite cos_PI4, sin_PI4.
      replace (/ 2) with ((1 / sqrt 2) * (1 / sqrt 2)). 2:{ field_simplify; [|apply sqrt2_neq_0]. rewrite pow2_sqrt by lra. reflexivity. }
      rewrite Rpow_mult_distr, <- !pow_add. f_equal. lia.
  - intros m n H. exists (IZR (2 * n)). cbn [fst snd]. split; [apply lrep_fz; lia|]. unfold u1_of. rewrite cos_PI2. ring.
  - intros l m n H H'. exists (IZR (4 * m * n)). cbn [fst snd]. split; [|unfold u_of; rewrite cos_PI2; ring].
    eapply lrep_eq; [apply lrep_add; [apply lrep_add|]; [apply lrep_log; lra|apply lrep_fz; lia|apply lrep_fz; lia]|].
    rewrite !mult_IZR. ring.
Qed.
Lemma size_lt L : let o := Z.of_nat L in (((o * (o + 1)) / 2 * (o + 2)) / 3 + (o * (o + 1)) / 2 + o + 1)%Z = tsize L.
Proof. cbv zeta. unfold tsize. rewrite tet3_tet6, tet6_succ, tri2_succ. unfold tri2. lia. Qed.
Lemma size_eq L : let o := Z.of_nat L in ((((o + 1) * (o + 2)) / 2 * (o + 3)) / 3)%Z = tsize L.
Proof.
  cbv zeta. unfold tsize. rewrite <- tet3_tet6.
  replace (Z.of_nat L + 1 + 1)%Z with (Z.of_nat L + 2)%Z by lia. replace (Z.of_nat L + 1 + 2)%Z with (Z.of_nat L + 3)%Z by lia. reflexivity.
Qed.
