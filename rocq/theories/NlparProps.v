(** C56, C105-C107: non-local pattern averaging (ebsdtorch/preprocessing/nlpar.py).  Every order of the kernel offsets that
    torch.argsort may return is covered. *)
From Coq Require Import Permutation.
From Coquelicot Require Import Coquelicot.
From Verif Require Import Base BaseFacts NlparModel NlparSpec NlparProofs NlparMore.
Open Scope R_scope.

(** ---- C56 ---- *)
(** whenever the computation stays finite, each output pattern is an average of the patterns of the scan inside the kernel (nothing from the
    padding), and no pattern has more weight than the original one *)
Theorem c56_average_of_neighbours : forall k offs s coeff tol bias out, sorted_offsets k offs -> nlpar offs s coeff tol bias = NlOk out -> forall i j, (i < s_h s)%nat -> (j < s_w s)%nat ->
  exists w, averaging k s i j w /\ (forall p, out i j p = scan_sum s (fun r c => w r c * s_pix s r c p)) /\ (forall r c, w r c <= w i j) /\ 0 < w i j.
Proof. exact nlpar_average. Qed.
Print Assumptions c56_average_of_neighbours.
(** so every output pixel lies between the smallest and the largest value of that pixel in the kernel *)
Theorem c56_no_overshoot : forall k offs s coeff tol bias out i j p lo hi, sorted_offsets k offs -> nlpar offs s coeff tol bias = NlOk out -> (i < s_h s)%nat -> (j < s_w s)%nat ->
  (forall r c, in_kernel k s i j r c -> lo <= s_pix s r c p <= hi) -> lo <= out i j p <= hi.
Proof. exact nlpar_bounds. Qed.
Print Assumptions c56_no_overshoot.
(** raising center_logit_bias moves every output pattern straight towards the original one *)
Theorem c56_bias_towards_original : forall k offs s coeff tol b b' out out' i j, sorted_offsets k offs -> nlpar offs s coeff tol b = NlOk out -> nlpar offs s coeff tol b' = NlOk out' -> b <= b' -> (i < s_h s)%nat -> (j < s_w s)%nat ->
  exists lam, 0 <= lam <= 1 /\ forall p, out' i j p = lam * s_pix s i j p + (1 - lam) * out i j p.
Proof. exact bias_pulls. Qed.
Print Assumptions c56_bias_towards_original.
(** torch.argsort puts the pattern itself first, whatever the ties: the centre weight is the one being fitted and biased *)
Theorem c56_self_is_first : forall k offs, sorted_offsets k offs -> exists r, offs = (0, 0)%Z :: r.
Proof. exact offs_first. Qed.
Print Assumptions c56_self_is_first.
Theorem c56_edge_neighbours_estimate_noise : forall k offs o, (1 <= k)%nat -> sorted_offsets k offs -> l1 o = 1%Z -> In o (firstn 8 (tl offs)).
Proof. exact offs_edge. Qed.
Print Assumptions c56_edge_neighbours_estimate_noise.
(** the weights: relative to the pattern itself, a neighbour at noise-normalised distance d weighs exp (- max d 0 / g^2 - max bias 0), where the
    bandwidth g is what at most ten Newton steps from 1 give for "mean share of the pattern itself = requested share", with the true derivative *)
Theorem c56_weights_and_bandwidth : forall k offs s coeff tol bias out, (1 <= k)%nat -> sorted_offsets k offs -> nlpar offs s coeff tol bias = NlOk out ->
  exists g v f', g <> 0 /\ (forall i j, (i < s_h s)%nat -> (j < s_w s)%nat -> is_noise offs s i j (v i j) /\ 0 < v i j) /\
    newton_run (share_excess offs s v coeff) f' tol 10 1 g /\ (forall x, x <> 0 -> is_derive (share_excess offs s v coeff) x (f' x)) /\
    forall i j, (i < s_h s)%nat -> (j < s_w s)%nat -> exists w, averaging k s i j w /\ (forall p, out i j p = scan_sum s (fun r c => w r c * s_pix s r c p)) /\
      forall r c, in_kernel k s i j r c -> (r, c) <> (i, j) -> w r c = w i j * exp (- (Rmax (noise_dist s v i j (Z.of_nat r) (Z.of_nat c)) 0 / (g * g)) - Rmax bias 0).
Proof. exact nlpar_formula. Qed.
Print Assumptions c56_weights_and_bandwidth.
(** no NaN when patterns in one kernel differ pairwise in some pixel and none is all dark *)
Theorem c56_defined_when_distinct : forall k offs s coeff tol bias, (1 <= k)%nat -> sorted_offsets k offs -> (0 < s_n s)%nat ->
  (forall i j r c, (i < s_h s)%nat -> (j < s_w s)%nat -> in_kernel k s i j r c -> (r, c) <> (i, j) -> ~ same_pattern s i j r c) ->
  (forall i j, (i < s_h s)%nat -> (j < s_w s)%nat -> exists p, (p < s_n s)%nat /\ s_pix s i j p <> 0) ->
  nlpar offs s coeff tol bias <> NlNaN.
Proof. exact distinct_defined. Qed.
Print Assumptions c56_defined_when_distinct.
Example c56_distinct_scan : let s := mkScan 4 4 3 (fun r c p => match p with O => INR (S r) | _ => INR (S c) end) in
  (forall i j r c, (i < s_h s)%nat -> (j < s_w s)%nat -> in_kernel 2 s i j r c -> (r, c) <> (i, j) -> ~ same_pattern s i j r c) /\
  (forall i j, (i < s_h s)%nat -> (j < s_w s)%nat -> exists p, (p < s_n s)%nat /\ s_pix s i j p <> 0).
Proof.
  cbn [s_h s_w s_n s_pix]. split.
  - intros i j r c _ _ _ N E. apply N. pose proof (E 0%nat ltac:(cbn; lia)) as A. pose proof (E 1%nat ltac:(cbn; lia)) as B. cbn [s_pix] in A, B. apply INR_eq in A. apply INR_eq in B. injection A as ->. injection B as ->. reflexivity.
  - intros i j _ _. exists 0%nat. split; [lia|]. apply not_0_INR. lia.
Qed.
Example c56_orders_exist : forall k, exists offs, sorted_offsets k offs.
Proof. exact sort_exists. Qed.
Example c56_nonvacuous : exists offs coeff out, sorted_offsets 1 offs /\ nlpar offs scan1 coeff (1/1000000) 0 = NlOk out.
Proof. destruct (sort_exists 1) as [offs S]. destruct (scan1_ok offs S) as [c [o E]]. exists offs, c, o. auto. Qed.

(** ---- C105: identical neighbours (refuted) ---- *)
(** two equal patterns side by side anywhere in the scan turn the whole output into NaN, for every radius >= 1, every coefficient and bias *)
Theorem c105_identical_neighbours_refuted : forall k offs s coeff tol bias i j r c, (1 <= k)%nat -> sorted_offsets k offs -> (i < s_h s)%nat -> (j < s_w s)%nat -> (r < s_h s)%nat -> (c < s_w s)%nat ->
  edge_neighbours i j r c -> same_pattern s i j r c -> nlpar offs s coeff tol bias = NlNaN.
Proof. exact duplicate_nan. Qed.
Print Assumptions c105_identical_neighbours_refuted.
Example c105_witness : exists offs s, sorted_offsets 3 offs /\ (forall r c p, 0 < s_pix s r c p) /\ nlpar offs s (3/8) (1/1000000) 0 = NlNaN.
Proof.
  destruct (sort_exists 3) as [offs S]. exists offs, (mkScan 5 5 4 (fun r c p => if (Nat.leb r 3)%nat then INR (1 + r + c + p) else 7)). split; [exact S|]. split.
  - intros r c p. cbn [s_pix]. destruct (Nat.leb r 3); [apply lt_0_INR; lia|lra].
  - apply (duplicate_nan 3 offs _ _ _ _ 4 0 4 1); cbn [s_h s_w]; try lia; try exact S; [left; lia|]. intros p _. reflexivity.
Qed.

(** ---- C106: a dark pattern at the scan border (refuted) ---- *)
Theorem c106_dark_border_refuted : forall k offs s coeff tol bias i j, (1 <= k)%nat -> sorted_offsets k offs -> (i < s_h s)%nat -> (j < s_w s)%nat -> i = 0%nat \/ j = 0%nat \/ S i = s_h s \/ S j = s_w s ->
  (forall p, (p < s_n s)%nat -> s_pix s i j p = 0) -> nlpar offs s coeff tol bias = NlNaN.
Proof. exact dark_border_nan. Qed.
Print Assumptions c106_dark_border_refuted.
Example c106_witness : exists offs, sorted_offsets 1 offs /\ nlpar offs (mkScan 2 2 1 (fun r c _ => INR (r + 3 * c))) (3/8) (1/1000000) 0 = NlNaN.
Proof.
  destruct (sort_exists 1) as [offs S]. exists offs. split; [exact S|]. apply (dark_border_nan 1 offs _ _ _ _ 0 0); cbn [s_h s_w s_n s_pix]; try lia; try exact S. intros p _. reflexivity.
Qed.

(** ---- C107: radius 0 (refuted) ---- *)
Theorem c107_radius_zero_refuted : forall offs s coeff tol bias, sorted_offsets 0 offs -> nlpar offs s coeff tol bias = NlError.
Proof. exact radius0. Qed.
Print Assumptions c107_radius_zero_refuted.
Example c107_order_exists : exists offs, sorted_offsets 0 offs.
Proof. exact (sort_exists 0). Qed.
