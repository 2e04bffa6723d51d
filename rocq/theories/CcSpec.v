(** Correlation on SO(3), independent of the model of sht_cc.py *)
From Verif Require Import Base WigModel WigSpec ShtModel ShtSpec.
Local Open Scope R_scope.

(** sum over n = -l .. l *)
Definition czs (l : nat) (h : Z -> cplx) : cplx := csumn (2 * l + 1) (fun i => h (Z.of_nat i - Z.of_nat l)%Z).
(** sum over l < B, |m| <= l, |n| <= l of F_lm conj(G_ln) d^l_mn(b) exp(i (m a + n c)): the coefficients of F against those of G rotated by the Euler angles (a, b, c) *)
Definition so3_corr (B : nat) (F G : nat -> Z -> cplx) (a b c : R) : cplx :=
  csumn B (fun l => czs l (fun m => czs l (fun n =>
    cscal (wigner (Z.of_nat l) m n b) (cmul (cmul (F l m) (conj (G l n))) (cexpi (IZR m * a + IZR n * c)))))).
(** coefficients of a complex signal, row m + B - 1 *)
Definition full_coeffs (B : nat) (f : nat -> nat -> cplx) (l : nat) (m : Z) : cplx := f (Z.to_nat (m + (Z.of_nat B - 1))) l.
(** coefficients of a real signal, row m >= 0; the others follow from the signal being real *)
Definition real_coeffs (f : nat -> nat -> cplx) (l : nat) (m : Z) : cplx :=
  if (m <? 0)%Z then cscal (if Z.even m then 1 else -1) (conj (f (Z.to_nat (- m)) l)) else f (Z.to_nat m) l.
(** angle of the j-th of N equidistant samples *)
Definition step_angle (N j : nat) : R := 2 * PI * INR j / INR N.
(** the dense table the fast correlation takes: d^l_mn(pi/2) at (l, m + B - 1, n + B - 1), zero outside |m|, |n| <= l *)
Definition dense_half (B : nat) (d : nat -> nat -> nat -> R) : Prop :=
  forall l i j, (l < B)%nat -> (i < 2 * B - 1)%nat -> (j < 2 * B - 1)%nat ->
    let m := (Z.of_nat i - (Z.of_nat B - 1))%Z in let n := (Z.of_nat j - (Z.of_nat B - 1))%Z in
    d l i j = if (Z.max (Z.abs m) (Z.abs n) <=? Z.of_nat l)%Z then wigner (Z.of_nat l) m n (PI / 2) else 0.
(** signals with the single coefficient (m, l) = (1, 1) *)
Definition single11 (m l : nat) : cplx := if (Nat.eqb m 1 && Nat.eqb l 1)%bool then (1, 0) else (0, 0).
(** squared norm of a set of coefficients up to degree B *)
Definition cn2 (a : cplx) : R := fst a * fst a + snd a * snd a.
Definition energy (B : nat) (F : nat -> Z -> cplx) : R :=
  sumn B (fun l => sumn (2 * l + 1) (fun i => cn2 (F l (Z.of_nat i - Z.of_nat l)%Z))).
