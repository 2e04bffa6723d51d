(** Specification vocabulary for the thermal diffuse integral. *)
From Coq Require Import QArith Qreals Reals ZArith List Lra.
From Coquelicot Require Import Coquelicot.
From Verif Require Import SfTables.
Import ListNotations.
Local Open Scope R_scope.

(** the improper integral of f over (0, infinity) converges to v *)
Definition improper (f : R -> R) (v : R) : Prop :=
  forall eps, 0 < eps -> exists d0 T0, 0 < d0 /\ 0 < T0 /\ forall d T, 0 < d < d0 -> T0 < T -> exists w, is_RInt f d T w /\ Rabs (w - v) < eps.

(** sum over all ordered pairs of the gaussians, in t = q^2: the thermal diffuse integrand of the elastic amplitude f = sum of a (1 - exp(-b t)) / t *)
Definition amplitude (ab : list (R * R)) (t : R) : R := fold_right Rplus 0 (map (fun p => fst p * (1 - exp (- snd p * t))) ab).
Definition diffuse_integrand (ab : list (R * R)) (u2 t : R) : R := PI * (amplitude ab t) ^ 2 * (1 - exp (- u2 * t)) / t ^ 2.

(** the published parameterisations, from the tables (row z - 1).  Lobato - Van Dyck: five pairs a, b at g = 2 s; Weickenmeier - Kohl: four pairs *)
Definition lvd_formula (z : Z) (g : R) : R :=
  let row := map Q2R (nth (Z.to_nat (z - 1)) fit_LVD []) in
  fold_right Rplus 0 (map (fun i => nth i row 0 * (2 + nth (i + 5) row 0 * g ^ 2) / (1 + nth (i + 5) row 0 * g ^ 2) ^ 2) (seq 0 5)).
Definition wk_a (z : Z) (i : nat) : R := Q2R (nth i (nth (Z.to_nat (z - 1)) wk_A_param []) 0%Q).
Definition wk_b (z : Z) (i : nat) : R := Q2R (nth i (nth (Z.to_nat (z - 1)) wk_B_param []) 0%Q).
Definition wk_formula (z : Z) (S : R) : R := fold_right Rplus 0 (map (fun i => wk_a z i * (1 - exp (- (wk_b z i * S ^ 2))) / S ^ 2) (seq 0 4)).
(** the four gaussians in units where the scattering vector is 4 pi S *)
Definition gaussians (z : Z) : list (R * R) := map (fun i => (wk_a z i * (4 * PI) ^ 2, wk_b z i / (4 * PI) ^ 2)) (seq 0 4).
