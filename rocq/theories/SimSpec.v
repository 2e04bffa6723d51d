(** Specification vocabulary for the simulator class. *)
From Verif Require Import Base QuatModel SphereModel MpModel MonteModel MonteSpec SimModel.
(** a tensor of the given shape with entries that are counts (non-negative) *)
Definition shaped (e d v w : nat) (h : hist) : Prop :=
  List.length h = e /\ Forall (fun r => List.length r = d /\ Forall (fun p => List.length p = v /\ Forall (fun q => List.length q = w /\ Forall (fun x => 0 <= x) q) p) r) h.
(** entry of a 4D tensor *)
Definition at4 (h : hist) (e d v w : nat) : R := nth w (nth v (nth d (nth e h []) []) []) 0.
(** what launch number k contributed to one cell, after the extra energy bins are dropped and, for a beam in the mirror plane, the mirrored copy is averaged in *)
Definition contribution (s : sim) (raw : hist) (e d v w : nat) : R :=
  if Req_EM_T (s_omega s) 0 then (at4 raw (s_extra s + e) d v w + at4 raw (s_extra s + e) d v (s_ndir s - 1 - w)) / 2 else at4 raw (s_extra s + e) d v w.
Fixpoint sum_upto (f : nat -> R) (k : nat) : R := match k with O => 0 | S k' => sum_upto f k' + f k' end.
(** counts of one launch that lie in retained energy bins *)
Definition retained_mass (s : sim) (raw : hist) : R := hist_sum (skipn (s_extra s) raw).
(** the raw histogram of every launch has the shape of the accumulator (lines 203-209) *)
Definition launch_shape (s : sim) (raw : hist) : Prop := shaped (Z.to_nat (n_fillable s) + s_extra s) (s_ndepth s) (s_ndir s) (s_ndir s) raw.
(** every retained energy bin of a launch received at least one count *)
Definition every_energy_seen (s : sim) (raw : hist) : Prop := forall e, (e < Z.to_nat (n_fillable s))%nat -> 0 < row_sum (nth (s_extra s + e) raw []).
(** lower edge, upper edge and middle of depth bin [i] in nm *)
Definition depth_lo (b : R) (i : nat) : R := exp (INR i * b) - 1.
Definition depth_hi (b : R) (i : nat) : R := exp (INR (i + 1) * b) - 1.
Definition depth_mid (b : R) (i : nat) : R := (depth_lo b i + depth_hi b i) / 2.
(** double precision numbers, and rounding to nearest *)
Definition double (r : R) : Prop := exists m e : Z, (Z.abs m < 2^53)%Z /\ (-1074 <= e <= 971)%Z /\ r = IZR m * powerRZ 2 e.
Definition nearest_double (x r : R) : Prop := double r /\ forall r', double r' -> Rabs (x - r) <= Rabs (x - r').
(** reflection in the plane y = 0, and the horizontally mirrored cell *)
Definition mirror (c : vec) : vec := mkV (vx c) (- vy c) (vz c).
Definition mirror_cell (n : Z) (b : bin) : bin := let '(e, d, x, y) := b in (e, d, x, n - 1 - y)%Z.
Definition negated (draws : nat -> R * R * R) : nat -> R * R * R := fun k => let '(u, r, psi) := draws k in (u, r, - psi).
(** where a trial leaves the sample: depth before the last step, direction and energy (the kernel records the cell of exactly this exit) *)
Fixpoint trial_exit (P : mc_par) (draws : nat -> R * R * R) (n : nat) (E z : R) (c : vec) : option (R * vec * R) :=
  match n with
  | O => None
  | S n' =>
      let '(u, r, psi) := draws n in
      let c' := scatter c (acos (polar_cos (alpha_of P E) r)) psi in
      if Rle_dec u 0 then None else
      let step := - free_path P E * ln u in
      if Rle_dec (E + step * rho P * loss_rate P E) 0 then None else
      if Rlt_dec (z + step * vz c') 0 then Some (z, c', E + step * rho P * loss_rate P E) else trial_exit P draws n' (E + step * rho P * loss_rate P E) (z + step * vz c') c'
  end.
(** horizontal coordinate in units of direction bins *)
Definition horizontal (P : mc_par) (c : vec) : R := (snd (rosca_lambert c) * (499999/1000000) + 1/2) * IZR (n_dir P).
(** the same simulation of a material with another density and atomic weight, with another depth bin size *)
Definition with_material (P : mc_par) (density aweight depth_bin : R) : mc_par :=
  mkMC (start_E P) (n_energy P) (n_dir P) (n_depth P) (bin_E P) depth_bin (atom_num P) density aweight (sigma_deg P) (omega_deg P).
(** ratio of the volumes per mole *)
Definition depth_factor (P : mc_par) (density aweight : R) : R := (aweight / density) / (weight P / rho P).
(** direction with polar angle [theta] from the inward surface normal and azimuth [phi] *)
Definition beam (theta phi : R) : vec := mkV (sin theta * cos phi) (sin theta * sin phi) (cos theta).
