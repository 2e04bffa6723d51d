(** Specifications: sample mean, sample covariance, orthonormal columns. *)
From Verif Require Import Base PcaModel.
Definition mean_of (L : list row) (j : nat) : R := sumr (fun r => r j) L / INR (length L).
(** unbiased sample covariance *)
Definition cov_of (L : list row) (j k : nat) : R :=
  sumr (fun r => (r j - mean_of L j) * (r k - mean_of L k)) L / (INR (length L) - 1).
Definition orthonormal (d n : nat) (Q : matx) : Prop :=
  forall a b, (a < n)%nat -> (b < n)%nat -> sumn d (fun i => Q i a * Q i b) = if Nat.eqb a b then 1 else 0.
(** what torch.linalg.inv_ex promises for an invertible n x n matrix *)
Definition is_inverse (n : nat) (A B : matx) : Prop :=
  forall a b, (a < n)%nat -> (b < n)%nat ->
    sumn n (fun c => B a c * A c b) = (if Nat.eqb a b then 1 else 0) /\ sumn n (fun c => A a c * B c b) = (if Nat.eqb a b then 1 else 0).
