(** Specification vocabulary for NLPAR. *)
From Coq Require Import Permutation.
From Verif Require Import Base NlparModel.
Open Scope R_scope.
(** an order torch.argsort may return: all offsets of the (2k+1) x (2k+1) kernel, nearest (in L1) first, ties in any order *)
Definition sorted_offsets (k : nat) (offs : list offset) : Prop :=
  Permutation offs (offset_grid k) /\ forall a b, (a <= b < List.length offs)%nat -> (l1 (nth a offs (0, 0)%Z) <= l1 (nth b offs (0, 0)%Z))%Z.
(** position (r, c) of the scan is within the kernel of radius k around (i, j) *)
Definition in_kernel (k : nat) (s : scan) (i j r c : nat) : Prop :=
  (r < s_h s)%nat /\ (c < s_w s)%nat /\ (Z.abs (Z.of_nat r - Z.of_nat i) <= Z.of_nat k)%Z /\ (Z.abs (Z.of_nat c - Z.of_nat j) <= Z.of_nat k)%Z.
(** sum over the whole scan *)
Definition scan_sum (s : scan) (f : nat -> nat -> R) : R := rsum (map (fun r => rsum (map (fun c => f r c) (seq 0 (s_w s)))) (seq 0 (s_h s))).
(** weights w r c of an average of the patterns around (i, j): non-negative, zero outside the kernel, sum one *)
Definition averaging (k : nat) (s : scan) (i j : nat) (w : nat -> nat -> R) : Prop :=
  (forall r c, (r < s_h s)%nat -> (c < s_w s)%nat -> 0 <= w r c) /\ (forall r c, (r < s_h s)%nat -> (c < s_w s)%nat -> ~ in_kernel k s i j r c -> w r c = 0) /\ scan_sum s w = 1.
(** two patterns of the scan are equal *)
Definition same_pattern (s : scan) (i j r c : nat) : Prop := forall p, (p < s_n s)%nat -> s_pix s i j p = s_pix s r c p.
Definition edge_neighbours (i j r c : nat) : Prop := (i = r /\ (c = S j \/ j = S c)) \/ (j = c /\ (r = S i \/ i = S r)).
(** squared distance of two patterns of the scan, over all pixels; a position outside the scan counts as a pattern of zeros *)
Definition pixel (s : scan) (i j : Z) (p : nat) : R :=
  if (Z.leb 0 i && Z.ltb i (Z.of_nat (s_h s)) && Z.leb 0 j && Z.ltb j (Z.of_nat (s_w s)))%bool then s_pix s (Z.to_nat i) (Z.to_nat j) p else 0.
Fixpoint pix_sum (n : nat) (f : nat -> R) : R := match n with O => 0 | S k => pix_sum k f + f k end.
Definition sq_dist (s : scan) (i j r c : Z) : R := pix_sum (s_n s) (fun p => (pixel s r c p - pixel s i j p) * (pixel s r c p - pixel s i j p)).
(** [v] is the noise variance estimated at (i, j): the least of the squared distances to the eight positions that follow (i, j) itself in the
    order of the offsets, over twice the number of pixels *)
Definition is_noise (offs : list offset) (s : scan) (i j : nat) (v : R) : Prop :=
  let d := fun o : offset => sq_dist s (Z.of_nat i) (Z.of_nat j) (Z.of_nat i + fst o) (Z.of_nat j + snd o) / (2 * INR (s_n s)) in
  (exists o, In o (firstn 8 (tl offs)) /\ v = d o) /\ forall o, In o (firstn 8 (tl offs)) -> v <= d o.
(** the variance at any position: 1 outside the scan *)
Definition noise_at (s : scan) (v : nat -> nat -> R) (r c : Z) : R :=
  if (Z.leb 0 r && Z.ltb r (Z.of_nat (s_h s)) && Z.leb 0 c && Z.ltb c (Z.of_nat (s_w s)))%bool then v (Z.to_nat r) (Z.to_nat c) else 1.
(** the distance of the pattern at (i, j) from the one at (r, c) in units of its expected noise: (D - n V) / (sqrt (2 n) V), V the sum of the two variances *)
Definition noise_dist (s : scan) (v : nat -> nat -> R) (i j : nat) (r c : Z) : R :=
  let V := v i j + noise_at s v r c in
  (sq_dist s (Z.of_nat i) (Z.of_nat j) r c - INR (s_n s) * V) / (sqrt (2 * INR (s_n s)) * V).
(** the share of the pattern at (i, j) in a softmax of itself and the eight positions that follow it, with bandwidth x; positions outside the scan
    take part *)
Definition self_share (offs : list offset) (s : scan) (v : nat -> nat -> R) (x : R) (i j : nat) : R :=
  / rsum (map (fun o => exp (- (Rmax (noise_dist s v i j (Z.of_nat i + fst o) (Z.of_nat j + snd o)) 0 / (x * x)))) (firstn 9 offs)).
(** what the bandwidth fit drives to zero: the mean share of the pattern itself, less the requested one *)
Definition share_excess (offs : list offset) (s : scan) (v : nat -> nat -> R) (coeff x : R) : R :=
  scan_sum s (self_share offs s v x) / (INR (s_h s) * INR (s_w s)) - coeff.
(** a run of Newton's method from g0: at most [limit] steps, stopping after the first step taken from a point where |f| < tol;
    the points it starts a step from are non-zero *)
Definition newton_run (f f' : R -> R) (tol : R) (limit : nat) (g0 g : R) : Prop :=
  exists (n : nat) (x : nat -> R), (n <= limit)%nat /\ x 0%nat = g0 /\ x n = g /\
    (forall k, (k < n)%nat -> x k <> 0 /\ f' (x k) <> 0 /\ x (S k) = x k - f (x k) / f' (x k)) /\
    (forall k, (S k < n)%nat -> tol <= Rabs (f (x k))) /\
    (n = limit \/ exists k, n = S k /\ Rabs (f (x k)) < tol).
