(** What the scattering factor theorems of SfProps are about, in textbook terms. *)
From Coq Require Import Reals List Lra.
From Coquelicot Require Import Coquelicot.
From Verif Require Import Base.
Import ListNotations.
Local Open Scope R_scope.

(** E1(x) = v: the integral of exp(-t)/t from x to infinity is v *)
Definition E1_is (x v : R) : Prop := is_lim (fun X => RInt (fun t => exp (- t) / t) x X) p_infty v.

(** Ei(x) = v for x > 0: the principal value of the integral of exp(t)/t from minus infinity to x is v.  The part from minus infinity
    to -d is -E1(d); the part from d to x is an ordinary integral; d tends to 0. *)
Definition Ei_is (x v : R) : Prop :=
  forall eps, 0 < eps -> exists d0, 0 < d0 /\ forall d w, 0 < d < d0 -> d < x -> E1_is d w ->
    Rabs (RInt (fun t => exp t / t) d x - w - v) < eps.

(** strictly increasing grid *)
Definition increasing_grid (x : list R) : Prop := forall i j, (i < j < length x)%nat -> nth i x 0 < nth j x 0.
