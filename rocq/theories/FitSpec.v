(** Specification vocabulary for the pattern-centre fitter. *)
From Verif Require Import Base QuatModel KnnSpec ExpModel GeomModel FitModel RefineSpec.
(** similarity of pattern [p] with the window of the enlarged image [sim] displaced by (d, e) pixels from the centred window *)
Definition window_similarity (f : fit_size) (sim p : img) (d e : Z) : R :=
  coord_sum (f_h f) (fun i => coord_sum (f_w f) (fun j =>
    p i j * sim (Z.to_nat (Z.of_nat (f_hp f + i) + d)) (Z.to_nat (Z.of_nat (f_wp f + j) + e)))).
(** displacements whose window lies inside the enlarged image *)
Definition in_reach (f : fit_size) (d e : Z) : Prop := (- Z.of_nat (f_hp f) <= d <= Z.of_nat (f_ha f) /\ - Z.of_nat (f_wp f) <= e <= Z.of_nat (f_wa f))%Z.
(** the point of detector pixel (i, j) in the sample frame for pattern centre (pcx, pcy, pcz) *)
Definition pixel_point (pc : vec) (tilt1 tilt2 : R) (shape : nat * nat) (i j : R) : vec :=
  let (r, t) := bruker_geometry_to_SE3 pc tilt1 tilt2 shape in vadd (mapp r (mkV i j 0)) t.
(** the largest of the numbers and 0 *)
Definition largest_or_zero (l : list R) (m : R) : Prop := 0 <= m /\ (forall x, In x l -> x <= m) /\ (m = 0 \/ In m l).
Definition in_grid (f : fit_size) (nz z y x : nat) : Prop := (z < nz /\ y < rows_of f /\ x < cols_of f)%nat.
(** mean over the patterns of the recorded similarity *)
Definition mean_similarity (am : list R -> nat) (f : fit_size) (zs : list R) (dict : list quat) (batch : nat) (sim : R -> quat -> img) (pats : list img) (z y x : nat) : R :=
  meanl (map (fun p => fst (cell am batch (map (fun q => dots_full f (sim (nth z zs 0) q) p y x) dict))) pats).
(** pattern [p] against dictionary entry [q] at one position *)
Definition score_at (f : fit_size) (zs : list R) (sim : R -> quat -> img) (z y x : nat) (p : img) (q : quat) : R := dots_full f (sim (nth z zs 0) q) p y x.

(** ---- a small scan: one row of two pixels, no padding.  The pattern is the normalised (1, 0), the second one its inverse;
    the simulated image of orientation q has contrast proportional to q's first component ---- *)
Definition tiny_size : fit_size := mkF 1 2 0 0 0 0.
Definition tiny_pat : img := fun _ j => match j with O => 1/2 | _ => -(1/2) end.
Definition tiny_inv : img := fun i j => - tiny_pat i j.
Definition tiny_sim : R -> quat -> img := fun _ q i j => 2 * qw q * tiny_pat i j.
Definition tiny_weak : quat := mkQ (3/5) (4/5) 0 0.
Definition tiny_strong : quat := mkQ 1 0 0 0.

(** [m] is the mean over the patterns of each pattern's best score (or 0) against the whole dictionary *)
Definition mean_best (f : fit_size) (zs : list R) (dict : list quat) (sim : R -> quat -> img) (pats : list img) (z y x : nat) (m : R) : Prop :=
  exists bs, Forall2 (fun p b => largest_or_zero (map (score_at f zs sim z y x p) dict) b) pats bs /\ m = meanl bs.
(** what a fit should report, lag by lag: the centre for which the pattern is the enlarged image displaced by (d, e) *)
Definition centre_of_lag (h w : nat) (z d e : R) : vec := mkV (1/2 - e / INR w) (1/2 - d / INR h) z.
