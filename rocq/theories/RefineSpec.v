(** Specification vocabulary for orientation refinement. *)
From Verif Require Import Base QuatModel QuatSpec LaueModel LaueSpec CuboModel ExpModel IndexModel RefineModel.

(** half the edge of the search cube: the cubochoric cube has edge PI^(2/3) and stands for 360 degrees *)
Definition half_edge (deg : R) : R := deg / 360 * Rpower PI (2/3).
(** v = (a, b, c) * (half edge / k) with integers |a|, |b|, |c| <= k, at least [z] of them zero *)
Definition offset (deg : R) (k z : nat) (v : vec) : Prop :=
  exists a b c : Z, (Z.abs a <= Z.of_nat k /\ Z.abs b <= Z.of_nat k /\ Z.abs c <= Z.of_nat k)%Z /\
    v = vscale (half_edge deg / INR k) (mkV (IZR a) (IZR b) (IZR c)) /\
    (z <= (if Z.eqb a 0 then 1 else 0) + (if Z.eqb b 0 then 1 else 0) + (if Z.eqb c 0 then 1 else 0))%nat.
(** full cube, coordinate planes, coordinate axes *)
Definition needed_zeros (dim : Z) : nat := Z.to_nat (3 - dim).
Definition grid_size (k : nat) (dim : Z) : nat :=
  if Z.eqb dim 3 then ((2 * k + 1) ^ 3)%nat else if Z.eqb dim 2 then ((2 * k + 1) ^ 3 - (2 * k) ^ 3)%nat else (6 * k + 1)%nat.
Definition dim_ok (dim : Z) : Prop := (1 <= dim <= 3)%Z.

(** torch.max(...).indices: a position of a largest entry *)
Definition picks_max (am : list R -> nat) : Prop :=
  forall l, l <> [] -> (am l < List.length l)%nat /\ forall i, (i < List.length l)%nat -> nth i l 0 <= nth (am l) l 0.
Definition non_decreasing (l : list R) : Prop := forall i j, (i <= j)%nat -> (j < List.length l)%nat -> nth i l 0 <= nth j l 0.

(** ---- whole scan ---- *)
(** one phase, all patterns indexed, [pats] are the patterns at this binning, [oris] the stored orientations *)
Definition refinable (mp : phase_mp) (binning : Z) (s : exp_state) (pats oris : list row) : Prop :=
  laue_id_ok (ph_laue mp) /\ e_phases s = Some (repeat 0%nat (e_n s)) /\ e_ori s = Some oris /\ List.length oris = e_n s /\
  exists sh, get_patterns s (map Z.of_nat (seq 0 (e_n s))) binning = Ok (sh, pats).
(** the state with another orientation table *)
Definition with_ori (s : exp_state) (t : list row) : exp_state :=
  mkE (e_spatial s) (e_h s) (e_w s) (e_pats s) (e_flat s) (e_phases s) (Some t) (e_coords s) (e_finv s) (e_raw s) (e_best s).

(** ---- gradient refinement ---- *)
(** the orientation before the optimiser step number [n] (0-based) *)
Definition iterate (step : quat -> quat) (n : nat) (q : quat) : quat := Nat.iter n step q.
(** first position of the largest entry: a maximum picker *)
Definition first_max (l : list R) : nat := argmax l.
