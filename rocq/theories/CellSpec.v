(** Specification vocabulary for unit cells. *)
From Verif Require Import Base SgModel SgSpec CellModel.
Open Scope R_scope.
(** lattice parameters of a real cell: positive edges, gamma strictly between 0 and 180 degrees, positive Gram determinant *)
Definition proper_cell (L : lattice) : Prop := 0 < la L /\ 0 < lb L /\ 0 < lc L /\ 0 < ga L < PI /\ 0 < mdet (dmt L).
Definition orthogonal_cell (L : lattice) : Prop := al L = PI / 2 /\ be L = PI / 2 /\ ga L = PI / 2.
Definition e1 : vec := mkV 1 0 0.
Definition e2 : vec := mkV 0 1 0.
Definition e3 : vec := mkV 0 0 1.
(** Cartesian vector meant by components in a space: direct components multiply the cell edges [ea eb ec] *)
Definition combine3 (ea eb ec : vec) (p : vec) : vec := vadd (vadd (vscale (vx p) ea) (vscale (vy p) eb)) (vscale (vz p) ec).
(** the dual (reciprocal) basis of three edges *)
Definition dual_basis (ea eb ec fa fb fc : vec) : Prop :=
  vdot ea fa = 1 /\ vdot ea fb = 0 /\ vdot ea fc = 0 /\ vdot eb fa = 0 /\ vdot eb fb = 1 /\ vdot eb fc = 0 /\ vdot ec fa = 0 /\ vdot ec fb = 0 /\ vdot ec fc = 1.
Definition is_orthogonal_matrix (m : mat) : Prop := mmul (mtr m) m = mid /\ mmul m (mtr m) = mid.
(** occupancy-weighted mean over the atoms of the cell: (value, occupancy, multiplicity) per site *)
Definition atoms_total (l : list (R * R * R)) : R := rsum (map (fun s => let '(w, o, m) := s in w * o * m) l).
Definition atoms_count (l : list (R * R * R)) : R := rsum (map (fun s => let '(w, o, m) := s in o * m) l).
(** lattice distance along one axis *)
Definition close_mod1 (x y eps : R) : Prop := exists n : Z, Rabs (x - y - IZR n) < eps.
(** the diffracting planes with spacing above dmin *)
Definition wanted (L : lattice) (sg : nat) (dmin : R) (h k l : Z) : Prop :=
  (h, k, l) <> (0, 0, 0)%Z /\ is_g_allowed sg h k l = Some true /\ dmin < 1 / calc_length L (zvec h k l) Recip.
(** the Cartesian vector that components mean in a space, given the cell edges and their dual (reciprocal) vectors *)
Record frame := mkFrame { f_a : vec; f_b : vec; f_c : vec; f_ra : vec; f_rb : vec; f_rc : vec }.
(** a frame realises a lattice: edges with the lattice's lengths and angles, in the standard placement (a along x, b in the upper xy half plane, c above it); reciprocal vectors dual to the edges *)
Definition realises (F : frame) (L : lattice) : Prop :=
  vdot (f_a F) (f_a F) = la L * la L /\ vdot (f_b F) (f_b F) = lb L * lb L /\ vdot (f_c F) (f_c F) = lc L * lc L /\
  vdot (f_a F) (f_b F) = la L * lb L * cos (ga L) /\ vdot (f_a F) (f_c F) = la L * lc L * cos (be L) /\ vdot (f_b F) (f_c F) = lb L * lc L * cos (al L) /\
  f_a F = mkV (la L) 0 0 /\ vz (f_b F) = 0 /\ 0 < vy (f_b F) /\ 0 < vz (f_c F) /\
  dual_basis (f_a F) (f_b F) (f_c F) (f_ra F) (f_rb F) (f_rc F).
Definition physical (F : frame) (p : vec) (s : space) : vec :=
  match s with Direct => combine3 (f_a F) (f_b F) (f_c F) p | Recip => combine3 (f_ra F) (f_rb F) (f_rc F) p | Cart => p end.
(** the obverse hexagonal edges of a rhombohedral cell: a - b, b - c, a + b + c *)
Definition obverse (ea eb ec p : vec) : vec := combine3 (vadd ea (vscale (-1) eb)) (vadd eb (vscale (-1) ec)) (vadd (vadd ea eb) ec) p.
(** spacing of planes with a given reciprocal vector *)
Definition spacing_above (L : lattice) (dmin : R) (h k l : Z) : Prop := dmin * calc_length L (zvec h k l) Recip < 1.
