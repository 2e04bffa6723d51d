(** What a spherical harmonic transform is, independent of the model of sht.py. *)
From Verif Require Import Base WigModel WigSpec ShtModel.
Local Open Scope R_scope.

(** orthonormal spherical harmonics with the Condon-Shortley phase; theta is the azimuth, phi the polar angle *)
Definition sph_harm (l m : Z) (theta phi : R) : cplx :=
  cscal ((if Z.even m then 1 else -1) * sqrt ((2 * IZR l + 1) / (4 * PI)) * wigner l m 0 phi) (cexpi (IZR m * theta)).
(** sum over the orders m = -(L-1) .. L-1 and the degrees l = |m| .. L-1 of coeff(m, l) Y_lm; coefficients are stored at row m + L - 1 *)
Definition synthesis (L : nat) (Psi : nat -> nat -> cplx) (theta phi : R) : cplx :=
  csumn (2 * L - 1) (fun i => csumn L (fun l =>
    let m := (Z.of_nat i - (Z.of_nat L - 1))%Z in
    if (Z.abs m <=? Z.of_nat l)%Z then cmul (Psi i l) (sph_harm (Z.of_nat l) m theta phi) else (0, 0))).
(** the coefficients of degree l < |m| are absent *)
Definition lower (L : nat) (Psi : nat -> nat -> cplx) : Prop :=
  forall i l, (i < 2 * L - 1)%nat -> (l < L)%nat -> (Z.of_nat l < Z.abs (Z.of_nat i - (Z.of_nat L - 1)))%Z -> Psi i l = (0, 0).
Definition rlower (L : nat) (Psi : nat -> nat -> cplx) : Prop :=
  forall i l, (i < L)%nat -> (l < i)%nat -> Psi i l = (0, 0).
(** both components within e *)
Definition cclose (e : R) (a b : cplx) : Prop := Rabs (fst a - fst b) <= e /\ Rabs (snd a - snd b) <= e.
(** both components at most P *)
Definition cbound (P : R) (a : cplx) : Prop := Rabs (fst a) <= P /\ Rabs (snd a) <= P.
(** the real signal whose coefficients of order m >= 0 are given (row m): orders - m carry the conjugate, so each m > 0 counts twice and the imaginary part of the order 0 cancels *)
Definition rsynthesis (L : nat) (Psi : nat -> nat -> cplx) (theta phi : R) : R :=
  sumn L (fun m => sumn L (fun l =>
    if Nat.leb m l then (if Nat.eqb m 0 then 1 else 2) * fst (cmul (Psi m l) (sph_harm (Z.of_nat l) (Z.of_nat m) theta phi)) else 0)).
Definition conj (a : cplx) : cplx := (fst a, - snd a).
(** inner product of a sampled signal with Y_lm: uniform weights PI / L around the azimuth, dlt_weight from pole to pole *)
Definition analysis (L : nat) (psi : nat -> nat -> cplx) (m : Z) (l : nat) : cplx :=
  csumn (2 * L) (fun k => csumn (2 * L) (fun j => cscal (PI / INR L * dlt_weight L k)
    (cmul (psi j k) (conj (sph_harm (Z.of_nat l) m (fst (grid_dh L j k)) (snd (grid_dh L j k))))))).
