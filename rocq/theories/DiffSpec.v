(** Specification vocabulary for diffraction. *)
From Coq Require Import Permutation.
From Verif Require Import Base SgModel SgSpec CellModel CellSpec DiffModel.
Import ListNotations.
Open Scope R_scope.
(** the reflection opposite to g *)
Definition opposite (g : hkl) : hkl := let '(h, k, l) := g in ((- h)%Z, (- k)%Z, (- l)%Z).
Definition entry (m : list (list cplx)) (i j : nat) (z : cplx) : Prop := exists r, nth_error m i = Some r /\ nth_error r j = Some z.
Definition lattice_point (p : vec) : Prop := exists a b c : Z, p = mkV (IZR a) (IZR b) (IZR c).
(** the list of atom positions is mapped onto itself, up to lattice translations, by a map of space *)
Definition maps_onto (f : vec -> vec) (l l' : list vec) : Prop := exists q, Permutation q l' /\ Forall2 (fun p p' => lattice_point (vadd p' (vscale (-1) (f p)))) l q.
Definition invariant_under (t : vec) (l : list vec) : Prop := maps_onto (fun p => vadd p t) l l.
Definition centrosymmetric (l : list vec) : Prop := maps_onto (fun p => vscale (-1) p) l l.
Definition inverted_site (s : site) : site := mkSite (s_z s) (s_occ s) (s_dw s) (map (vscale (-1)) (s_orbit s)).
(** a wave with amplitudes x_i along the beams g_i, at a point r: sum of x_i exp(2 pi i g_i . r) *)
Definition wave (bs : list hkl) (x : list cplx) (r : vec) : cplx := csum (map (fun p => cmul (snd p) (cexpi (2 * PI * gdot (fst p) r))) (combine bs x)).
Definition sqmod (z : cplx) : R := fst z * fst z + snd z * snd z.
(** electrons emitted by an atom without thermal motion: Z^2 times occupancy times the probability density at its positions *)
Definition emission (s : site) (bs : list hkl) (x : list cplx) : R := s_z s ^ 2 * s_occ s * rsum (map (fun p => sqmod (wave bs x p)) (s_orbit s)).
(** Darwin-Howie-Whelan equations: d psi_g / dz = 2 pi i s_g psi_g - pi lambda U'_0 psi_g + i pi lambda sum over g' <> g of U_(g - g') psi_g' *)
Definition dhw_matrix (lam up : R) (s : nat -> R) (U : hkl -> cplx) (bs : list hkl) (i j : nat) (z : cplx) : Prop :=
  exists gi gj, nth_error bs i = Some gi /\ nth_error bs j = Some gj /\
    z = if Nat.eqb i j then (- (PI * lam * up), 2 * PI * s i) else cmul (0, PI * lam) (U (hsub gi gj)).
(** weights of the depth bins actually used: a prefix *)
Definition used_weight (row : list R) (n : nat) : R := rsum (firstn n row).
