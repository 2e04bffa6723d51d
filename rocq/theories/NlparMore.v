(** distances, weights and the Newton iteration of NLPAR *)
From Coq Require Import Permutation.
From Coquelicot Require Import Coquelicot.
From Verif Require Import Base BaseFacts NlparModel NlparSpec NlparProofs.
Open Scope R_scope.

Lemma rsum_seq n f : rsum (map f (seq 0 n)) = pix_sum n f.
Proof. induction n as [|n IH]; [reflexivity|]. rewrite seq_S, map_app, rsum_app, IH. cbn. ring. Qed.
Lemma pix_sum_ext n f g : (forall p, (p < n)%nat -> f p = g p) -> pix_sum n f = pix_sum n g.
Proof. induction n as [|n IH]; intros H; [reflexivity|]. cbn. rewrite IH by (intros; apply H; lia). rewrite H by lia. reflexivity. Qed.
Lemma dist_sq s i j o : dist s i j o = sq_dist s i j (i + fst o) (j + snd o).
Proof. unfold dist, sq_dist. rewrite rsum_seq. apply pix_sum_ext. intros p Hp. unfold ppix, inb, pixel. ring. Qed.
Lemma list_min_in x l : In (list_min x l) (x :: l).
Proof. revert x. induction l as [|y r IH]; intros x; [left; reflexivity|]. cbn [list_min]. unfold Rmin. destruct (Rle_dec x (list_min y r)); [left; reflexivity|right; apply IH]. Qed.
Lemma near_nonempty k offs : (1 <= k)%nat -> sorted_offsets k offs -> firstn 8 (tl offs) <> [].
Proof. intros K S E. pose proof (offs_edge k offs (1, 0)%Z K S eq_refl) as I. rewrite E in I. exact I. Qed.
Lemma sig2_noise k offs s i j : (1 <= k)%nat -> sorted_offsets k offs -> is_noise offs s i j (sig2 offs s (Z.of_nat i) (Z.of_nat j)).
Proof.
  intros K S. pose proof (near_nonempty k offs K S) as NE. unfold is_noise, sig2. cbv zeta. destruct (firstn 8 (tl offs)) as [|o r]; [contradiction|].
  set (d := dist s (Z.of_nat i) (Z.of_nat j)). change (dist s (Z.of_nat i) (Z.of_nat j) o) with (d o).
  assert (P : 0 <= / (2 * INR (s_n s))) by (destruct (s_n s) as [|n]; [simpl; rewrite Rmult_0_r, Rinv_0; lra|left; apply Rinv_0_lt_compat; assert (0 < INR (Datatypes.S n)) by (apply lt_0_INR; lia); lra]).
  split.
  - pose proof (list_min_in (d o) (map d r)) as I. change (d o :: map d r) with (map d (o :: r)) in I. apply in_map_iff in I. destruct I as (x & E & I). exists x. split; [exact I|]. rewrite <- E. unfold d. rewrite dist_sq. reflexivity.
  - intros x I. rewrite <- dist_sq. fold (d x). unfold Rdiv. apply Rmult_le_compat_r; [exact P|]. apply list_min_le. change (d o :: map d r) with (map d (o :: r)). now apply in_map.
Qed.
(** ---- when the result is defined ---- *)
Lemma pix_sum_nonneg n f : (forall p, (p < n)%nat -> 0 <= f p) -> 0 <= pix_sum n f.
Proof. induction n as [|n IH]; intros H; cbn; [lra|]. assert (0 <= f n) by (apply H; lia). assert (0 <= pix_sum n f) by (apply IH; intros; apply H; lia). lra. Qed.
Lemma pix_sum_pos n f q : (forall p, (p < n)%nat -> 0 <= f p) -> (q < n)%nat -> 0 < f q -> 0 < pix_sum n f.
Proof.
  induction n as [|n IH]; intros H Q F; [lia|]. cbn. assert (0 <= f n) by (apply H; lia). assert (0 <= pix_sum n f) by (apply pix_sum_nonneg; intros; apply H; lia).
  destruct (Nat.eq_dec q n) as [->|N]; [lra|]. assert (0 < pix_sum n f) by (apply IH; [intros; apply H; lia|lia|exact F]). lra.
Qed.
Lemma sq_dist_pos s i j r c p : (p < s_n s)%nat -> pixel s r c p <> pixel s i j p -> 0 < sq_dist s i j r c.
Proof.
  intros Hp N. unfold sq_dist. apply (pix_sum_pos _ _ p); [intros q _; apply Rle_0_sqr|exact Hp|]. apply (Rlt_0_sqr (pixel s r c p - pixel s i j p)). lra.
Qed.
Lemma tl_in {A} (l : list A) x : In x (tl l) -> In x l.
Proof. destruct l; [easy|right; assumption]. Qed.
Lemma firstn_in {A} n (l : list A) x : In x (firstn n l) -> In x l.
Proof. intros H. rewrite <- (firstn_skipn n l). apply in_app_iff. left. exact H. Qed.
Lemma distinct_defined k offs s coeff tol bias : (1 <= k)%nat -> sorted_offsets k offs -> (0 < s_n s)%nat ->
  (forall i j r c, (i < s_h s)%nat -> (j < s_w s)%nat -> in_kernel k s i j r c -> (r, c) <> (i, j) -> ~ same_pattern s i j r c) ->
  (forall i j, (i < s_h s)%nat -> (j < s_w s)%nat -> exists p, (p < s_n s)%nat /\ s_pix s i j p <> 0) ->
  nlpar offs s coeff tol bias <> NlNaN.
Proof.
  intros K S N D NZ. unfold nlpar. destruct (tl offs) as [|x r] eqn:T; [discriminate|].
  assert (P : forall i j, (i < s_h s)%nat -> (j < s_w s)%nat -> sig2 offs s (Z.of_nat i) (Z.of_nat j) <> 0).
  { intros i j I J E. destruct (sig2_noise k offs s i j K S) as [(o & O & V) _]. rewrite E in V.
    assert (N0 : 0 < INR (s_n s)) by (apply lt_0_INR; exact N).
    assert (Z0 : sq_dist s (Z.of_nat i) (Z.of_nat j) (Z.of_nat i + fst o) (Z.of_nat j + snd o) = 0) by (apply Rmult_eq_reg_r with (/ (2 * INR (s_n s))); [|apply Rinv_neq_0_compat; lra]; fold (Rdiv (sq_dist s (Z.of_nat i) (Z.of_nat j) (Z.of_nat i + fst o) (Z.of_nat j + snd o)) (2 * INR (s_n s))); rewrite <- V; ring).
    pose proof (firstn_in _ _ _ O) as O1. assert (O2 : o <> (0, 0)%Z). { intros ->. destruct (offs_first k offs S) as [t Et]. rewrite Et in O1. cbn [tl] in O1. pose proof (offs_nodup k offs S) as ND. rewrite Et in ND. inversion ND; contradiction. }
    apply tl_in in O1. apply (offs_in k offs o S) in O1.
    destruct (inb s (Z.of_nat i + fst o) (Z.of_nat j + snd o)) eqn:B.
    - unfold inb in B. rewrite !andb_true_iff, !Z.leb_le, !Z.ltb_lt in B. set (r' := Z.to_nat (Z.of_nat i + fst o)). set (c' := Z.to_nat (Z.of_nat j + snd o)).
      assert (Er : (Z.of_nat i + fst o)%Z = Z.of_nat r') by (unfold r'; lia). assert (Ec : (Z.of_nat j + snd o)%Z = Z.of_nat c') by (unfold c'; lia).
      apply (D i j r' c' I J).
      + unfold in_kernel. lia.
      + intros Q. injection Q as Q1 Q2. apply O2. destruct o as [a b]. cbn [fst snd] in *. f_equal; lia.
      + intros p Hp. destruct (Req_dec (s_pix s i j p) (s_pix s r' c' p)) as [Q|Q]; [exact Q|]. exfalso. rewrite Er, Ec in Z0.
        assert (0 < sq_dist s (Z.of_nat i) (Z.of_nat j) (Z.of_nat r') (Z.of_nat c')); [|lra]. apply (sq_dist_pos s _ _ _ _ p Hp).
        unfold pixel. fold (inb s (Z.of_nat r') (Z.of_nat c')). fold (inb s (Z.of_nat i) (Z.of_nat j)). rewrite (proj2 (inb_nat s r' c')) by lia. rewrite (proj2 (inb_nat s i j)) by lia. rewrite !Nat2Z.id. auto.
    - destruct (NZ i j I J) as (p & Hp & Q). assert (0 < sq_dist s (Z.of_nat i) (Z.of_nat j) (Z.of_nat i + fst o) (Z.of_nat j + snd o)); [|lra]. apply (sq_dist_pos s _ _ _ _ p Hp).
      unfold pixel. fold (inb s (Z.of_nat i + fst o) (Z.of_nat j + snd o)). fold (inb s (Z.of_nat i) (Z.of_nat j)). rewrite B, (proj2 (inb_nat s i j)) by auto. rewrite !Nat2Z.id. auto. }
  destruct (existsb _ _) eqn:E.
  - apply existsb_exists in E. destruct E as ((a, b) & E1 & E2). apply positions_in in E1. unfold inb in E1. cbn [fst snd] in *. rewrite !andb_true_iff, !Z.leb_le, !Z.ltb_lt in E1.
    exfalso. apply (P (Z.to_nat a) (Z.to_nat b)); [lia|lia|]. rewrite !Z2Nat.id by lia. destruct (Req_EM_T (sig2 offs s a b) 0); [assumption|discriminate].
  - destruct (newton _ _ _ _ _); [|discriminate]. destruct (Req_EM_T _ _); discriminate.
Qed.
(** ---- weights ---- *)
Definition vof (offs : list offset) (s : scan) : nat -> nat -> R := fun i j => sig2 offs s (Z.of_nat i) (Z.of_nat j).
Lemma noise_at_sig offs s r c : noise_at s (vof offs s) r c = sig2p offs s r c.
Proof.
  unfold noise_at, sig2p. fold (inb s r c). destruct (inb s r c) eqn:B; [|reflexivity]. unfold inb in B. rewrite !andb_true_iff, !Z.leb_le, !Z.ltb_lt in B. unfold vof. rewrite !Z2Nat.id by lia. reflexivity.
Qed.
Lemma weight_noise offs s i j o : weight offs s (Z.of_nat i) (Z.of_nat j) o = - Rmax (noise_dist s (vof offs s) i j (Z.of_nat i + fst o) (Z.of_nat j + snd o)) 0.
Proof. unfold weight, ndist, noise_dist. cbv zeta. rewrite dist_sq, noise_at_sig. rewrite sqrt_mult by (apply pos_INR || lra). reflexivity. Qed.
Lemma weight_formula k offs s g bias i j : sorted_offsets k offs -> (i < s_h s)%nat -> (j < s_w s)%nat -> sig2 offs s (Z.of_nat i) (Z.of_nat j) <> 0 ->
  exists w, averaging k s i j w /\ (forall p, denoise offs s g bias i j p = scan_sum s (fun r c => w r c * s_pix s r c p)) /\
      forall r c, in_kernel k s i j r c -> (r, c) <> (i, j) -> w r c = w i j * exp (- (Rmax (noise_dist s (vof offs s) i j (Z.of_nat r) (Z.of_nat c)) 0 / (g * g)) - Rmax bias 0).
Proof.
  intros S I J N. destruct (averaging_ok k offs s g bias i j S I J N) as (A & B & _ & _). cbv zeta in A, B. eexists. split; [exact A|]. split; [exact B|].
  intros r c Kr Ne. pose proof Kr as Kr'. unfold in_kernel in Kr'. destruct Kr' as (R1 & C1 & R2 & C2).
  unfold wfun, kernelb. cbn [fst snd]. rewrite (proj2 (Z.leb_le _ _) R2), (proj2 (Z.leb_le _ _) C2). cbn [andb].
  rewrite !Z.sub_diag. cbn [Z.abs]. rewrite (proj2 (Z.leb_le 0 (Z.of_nat k))) by lia. cbn [andb].
  assert (E0 : energy offs s g bias (Z.of_nat i) (Z.of_nat j) (0, 0)%Z = exp (Rmax bias 0)) by (apply energy_centre; [now apply inb_nat|exact N]).
  rewrite E0. set (tot := rsum _). unfold Rdiv at 1. unfold Rdiv at 1.
  assert (E1 : energy offs s g bias (Z.of_nat i) (Z.of_nat j) (Z.of_nat r - Z.of_nat i, Z.of_nat c - Z.of_nat j)%Z = exp (- (Rmax (noise_dist s (vof offs s) i j (Z.of_nat r) (Z.of_nat c)) 0 / (g * g)))).
  { unfold energy. rewrite weight_noise. cbn [fst snd]. replace (Z.of_nat i + (Z.of_nat r - Z.of_nat i))%Z with (Z.of_nat r) by lia. replace (Z.of_nat j + (Z.of_nat c - Z.of_nat j))%Z with (Z.of_nat c) by lia.
    rewrite (proj2 (inb_nat s r c)) by auto. replace (Z.eqb (Z.of_nat r - Z.of_nat i) 0 && Z.eqb (Z.of_nat c - Z.of_nat j) 0)%bool with false.
    2:{ symmetry. destruct (Z.eqb_spec (Z.of_nat r - Z.of_nat i) 0), (Z.eqb_spec (Z.of_nat c - Z.of_nat j) 0); try reflexivity. exfalso. apply Ne. f_equal; lia. }
    f_equal. unfold Rdiv. replace (g ^ 2) with (g * g) by ring. ring. }
  rewrite E1. unfold Rminus. rewrite exp_plus, exp_Ropp with (x := Rmax bias 0). pose proof (exp_pos (Rmax bias 0)) as P.
  set (e := exp (Rmax bias 0)) in *. set (q := exp _). transitivity ((e * / e) * (q * / tot)); [rewrite Rinv_r by lra; ring|ring].
Qed.
(** ---- the bandwidth fit ---- *)
Lemma is_derive_rsum (l : list R) (f f' : R -> R -> R) x : (forall w, In w l -> is_derive (f w) x (f' w x)) -> is_derive (fun x => rsum (map (fun w => f w x) l)) x (rsum (map (fun w => f' w x) l)).
Proof.
  induction l as [|w l IH]; intros H; cbn [map rsum fold_right]; [apply @is_derive_const|]. apply (is_derive_plus (f w) (fun x => rsum (map (fun w => f w x) l))); [apply H; now left|apply IH; intros; apply H; now right].
Qed.
Lemma is_derive_rsum2 (l : list (list R)) (f f' : list R -> R -> R) x : (forall w, In w l -> is_derive (f w) x (f' w x)) -> is_derive (fun x => rsum (map (fun w => f w x) l)) x (rsum (map (fun w => f' w x) l)).
Proof.
  induction l as [|w l IH]; intros H; cbn [map rsum fold_right]; [apply @is_derive_const|]. apply (is_derive_plus (f w) (fun x => rsum (map (fun w => f w x) l))); [apply H; now left|apply IH; intros; apply H; now right].
Qed.
Lemma expsum_pos ws x : ws <> [] -> 0 < rsum (map (fun w => exp (w / x ^ 2)) ws).
Proof.
  destruct ws as [|w r]; [easy|]. intros _. apply (rsum_pos _ (exp (w / x ^ 2))); [|now left|apply exp_pos]. intros y Hy. apply in_map_iff in Hy. destruct Hy as (? & <- & _). left. apply exp_pos.
Qed.
Lemma derive_exp w x : x <> 0 -> is_derive (fun x => exp (w / x ^ 2)) x (-2 * w / x ^ 3 * exp (w / x ^ 2)).
Proof. intros X. auto_derive; [simpl; nra|]. match goal with |- ?a = ?b => change (@eq R a b) end. replace (x * (x * 1)) with (x ^ 2) by ring. unfold Rdiv. field. exact X. Qed.
Lemma derive_share ws x : x <> 0 -> ws <> [] ->
  is_derive (fun x => exp (nth 0 ws 0 / x ^ 2) / rsum (map (fun w => exp (w / x ^ 2)) ws)) x
    (-2 * exp (nth 0 ws 0 / x^2) * (rsum (map (fun w => nth 0 ws 0 * exp (w / x^2)) ws) - rsum (map (fun w => w * exp (w / x^2)) ws)) / (x^3 * (rsum (map (fun w => exp (w / x^2)) ws))^2)).
Proof.
  intros X N. set (a := nth 0 ws 0). pose proof (expsum_pos ws x N) as P.
  pose proof (is_derive_rsum ws (fun w x => exp (w / x ^ 2)) (fun w x => -2 * w / x ^ 3 * exp (w / x ^ 2)) x (fun w _ => derive_exp w x X)) as D. cbv beta in D.
  pose proof (is_derive_div (fun x => exp (a / x ^ 2)) (fun x => rsum (map (fun w => exp (w / x ^ 2)) ws)) x _ _ (derive_exp a x X) D ltac:(lra)) as Q. cbv beta in Q.
  eapply is_derive_ext; [|eapply (eq_ind _ (fun d => is_derive _ x d) Q)]; [reflexivity|].
  replace (rsum (map (fun w => a * exp (w / x ^ 2)) ws)) with (rsum (map (fun w => exp (w / x ^ 2)) ws) * a) by (rewrite <- rsum_scale; apply rsum_ext; intros; ring).
  replace (rsum (map (fun w => -2 * w / x ^ 3 * exp (w / x ^ 2)) ws)) with (rsum (map (fun w => w * exp (w / x ^ 2)) ws) * (-2 / x ^ 3)) by (rewrite <- rsum_scale; apply rsum_ext; intros; unfold Rdiv; ring).
  match goal with |- ?a = ?b => change (@eq R a b) end. unfold minus, plus, opp, mult, scal. field. split; [lra|exact X].
Qed.
Lemma gradient_derive nn coeff x : x <> 0 -> (forall ws, In ws nn -> ws <> []) -> is_derive (objective nn coeff) x (gradient nn x).
Proof.
  intros X N. unfold objective, gradient, mean. rewrite !map_length.
  pose proof (is_derive_rsum2 nn _ (fun ws x => -2 * exp (nth 0 ws 0 / x^2) * (rsum (map (fun w => nth 0 ws 0 * exp (w / x^2)) ws) - rsum (map (fun w => w * exp (w / x^2)) ws)) / (x^3 * (rsum (map (fun w => exp (w / x^2)) ws))^2)) x (fun ws I => derive_share ws x X (N ws I))) as D. cbv beta in D.
  set (G := rsum (map (fun ws => -2 * exp (nth 0 ws 0 / x^2) * (rsum (map (fun w => nth 0 ws 0 * exp (w / x^2)) ws) - rsum (map (fun w => w * exp (w / x^2)) ws)) / (x^3 * (rsum (map (fun w => exp (w / x^2)) ws))^2)) nn)) in *.
  apply is_derive_ext with (f := fun x => (/ INR (List.length nn)) * rsum (map (fun ws => exp (nth 0 ws 0 / x ^ 2) / rsum (map (fun w => exp (w / x ^ 2)) ws)) nn) - coeff).
  { intros t. match goal with |- ?a = ?b => change (@eq R a b) end. rewrite map_length. unfold Rdiv. cbv beta. ring. }
  replace (G / INR (List.length nn)) with (minus (/ INR (List.length nn) * G) 0) by (match goal with |- ?a = ?b => change (@eq R a b) end; unfold minus, plus, opp; cbn; unfold Rdiv; ring).
  apply (is_derive_minus (fun x => / INR (List.length nn) * rsum (map (fun ws => exp (nth 0 ws 0 / x ^ 2) / rsum (map (fun w => exp (w / x ^ 2)) ws)) nn)) (fun _ => coeff)); [|apply @is_derive_const].
  apply (is_derive_scal (fun x => rsum (map (fun ws => exp (nth 0 ws 0 / x ^ 2) / rsum (map (fun w => exp (w / x ^ 2)) ws)) nn))). exact D.
Qed.
Lemma newton_is_run nn coeff tol (f : R -> R) : (forall x, f x = objective nn coeff x) -> forall fuel g0 g, newton fuel nn coeff tol g0 = Some g -> newton_run f (gradient nn) tol fuel g0 g.
Proof.
  intros F. induction fuel as [|fuel IH]; intros g0 g H; cbn [newton] in H.
  - injection H as <-. exists 0%nat, (fun _ => g0). split; [lia|]. split; [reflexivity|]. split; [reflexivity|]. split; [intros; lia|]. split; [intros; lia|]. left. reflexivity.
  - destruct (Req_EM_T g0 0) as [|Z0]; [discriminate|]. destruct (Req_EM_T (gradient nn g0) 0) as [|G0]; [discriminate|]. cbv zeta in H.
    destruct (Rlt_dec (Rabs (objective nn coeff g0)) tol) as [T|T].
    + injection H as <-. exists 1%nat, (fun k => match k with O => g0 | _ => g0 - objective nn coeff g0 / gradient nn g0 end). split; [lia|]. split; [reflexivity|]. split; [reflexivity|]. split.
      { intros [|k] K; [|lia]. rewrite F. auto. }
      split; [intros; lia|]. right. exists 0%nat. split; [reflexivity|]. rewrite F. exact T.
    + apply IH in H. destruct H as (n & x & L & X0 & XN & ST & BIG & END). exists (S n), (fun k => match k with O => g0 | S k => x k end). split; [lia|]. split; [reflexivity|]. split; [exact XN|]. split.
      { intros [|k] K; [|apply ST; lia]. rewrite F, X0. auto. }
      split. { intros [|k] K; [rewrite F; lra|apply BIG; lia]. }
      destruct END as [->|(k & -> & E)]; [left; reflexivity|right; exists (S k); auto].
Qed.
Lemma positions_length s : List.length (positions s) = (s_h s * s_w s)%nat.
Proof. unfold positions. assert (forall h a, List.length (flat_map (fun i => map (fun j => (Z.of_nat i, Z.of_nat j)) (seq 0 (s_w s))) (seq a h)) = (h * s_w s)%nat) as H; [|apply H]. induction h as [|h IH]; intros a; [reflexivity|]. cbn [seq flat_map]. rewrite app_length, IH, map_length, seq_length. lia. Qed.
Lemma objective_share k offs s coeff x : sorted_offsets k offs -> (forall i j, (i < s_h s)%nat -> (j < s_w s)%nat -> sig2 offs s (Z.of_nat i) (Z.of_nat j) <> 0) ->
  share_excess offs s (vof offs s) coeff x = objective (map (fun ij => map (weight offs s (fst ij) (snd ij)) (firstn 9 offs)) (positions s)) coeff x.
Proof.
  intros S N. destruct (offs_first k offs S) as [t Et]. unfold share_excess, objective, mean. rewrite map_length, map_length, positions_length, mult_INR. f_equal. f_equal.
  rewrite map_map, positions_sum. unfold scan_sum. f_equal. apply map_ext_in. intros i I. f_equal. apply map_ext_in. intros j J. apply in_seq in I. apply in_seq in J. cbn [fst snd].
  assert (E9 : exists t9, firstn 9 offs = (0, 0)%Z :: t9) by (rewrite Et; eexists; reflexivity). destruct E9 as [t9 E9]. rewrite E9 at 1. cbn [map nth]. rewrite weight_self by (try apply inb_nat; try apply N; lia). replace (0 / x ^ 2) with 0 by (unfold Rdiv; ring). rewrite exp_0. match goal with |- _ = 1 / ?a => replace (1 / a) with (/ a) by (unfold Rdiv; ring) end.
  unfold self_share. f_equal. f_equal. rewrite map_map. apply map_ext. intros o. rewrite weight_noise. f_equal. unfold Rdiv. replace (x ^ 2) with (x * x) by ring. ring.
Qed.
Lemma nlpar_formula k offs s coeff tol bias out : (1 <= k)%nat -> sorted_offsets k offs -> nlpar offs s coeff tol bias = NlOk out ->
  exists g v f', g <> 0 /\ (forall i j, (i < s_h s)%nat -> (j < s_w s)%nat -> is_noise offs s i j (v i j) /\ 0 < v i j) /\
    newton_run (share_excess offs s v coeff) f' tol 10 1 g /\ (forall x, x <> 0 -> is_derive (share_excess offs s v coeff) x (f' x)) /\
    forall i j, (i < s_h s)%nat -> (j < s_w s)%nat -> exists w, averaging k s i j w /\ (forall p, out i j p = scan_sum s (fun r c => w r c * s_pix s r c p)) /\
      forall r c, in_kernel k s i j r c -> (r, c) <> (i, j) -> w r c = w i j * exp (- (Rmax (noise_dist s v i j (Z.of_nat r) (Z.of_nat c)) 0 / (g * g)) - Rmax bias 0).
Proof.
  intros K S H. destruct (nlpar_ok _ _ _ _ _ _ H) as (_ & _ & _ & N). destruct (offs_first k offs S) as [t Et].
  unfold nlpar in H. destruct (tl offs) eqn:T; [discriminate|]. destruct (existsb _ _); [discriminate|].
  destruct (newton _ _ _ _ _) as [g|] eqn:W; [|discriminate]. destruct (Req_EM_T g 0) as [|G]; [discriminate|]. injection H as <-.
  exists g, (vof offs s), (gradient (map (fun ij => map (weight offs s (fst ij) (snd ij)) (firstn 9 offs)) (positions s))).
  split; [exact G|]. split. { intros i j I J. split; [now apply (sig2_noise k)|]. pose proof (sig2_nonneg offs s (Z.of_nat i) (Z.of_nat j)). specialize (N i j I J). unfold vof. lra. }
  split. { eapply newton_is_run; [|exact W]. intros x. now apply (objective_share k). }
  split. { intros x X. eapply is_derive_ext; [intros u; symmetry; now apply (objective_share k)|]. apply gradient_derive; [exact X|]. intros ws I. apply in_map_iff in I. destruct I as (? & <- & _). rewrite Et. discriminate. }
  intros i j I J. now apply (weight_formula k); [..|apply N].
Qed.
