(** Specification vocabulary for the Monte-Carlo simulations. *)
From Verif Require Import Base QuatModel SphereModel MonteModel.
(** admissible parameters *)
Definition physical (P : mc_par) : Prop := 0 < atom_num P /\ 0 < rho P /\ 0 < weight P.
(** the bin is a cell of the accumulator *)
Definition in_bins (P : mc_par) (b : bin) : Prop :=
  let '(e, d, x, y) := b in (0 <= e < n_energy P /\ 0 <= d < n_depth P /\ 0 <= x < n_dir P /\ 0 <= y < n_dir P)%Z.
(** how many times [b] occurs in [l] *)
Definition occurrences (b : bin) (l : list bin) : nat := List.length (filter (bin_eqb b) l).
(** an electron's direction, when it has one, has length 1 *)
Definition unit_state (s : estate) : Prop := match s with None => True | Some (_, _, c) => vdot c c = 1 end.
(** uniform draws: u in (0, 1], r in [0, 1] *)
Definition proper_draw (d : R * R * R) : Prop := let '(u, r, _) := d in 0 < u <= 1 /\ 0 <= r <= 1.
(** the seeds for which the four component generators of LFSR113 do not degenerate *)
Definition good_seed (z : Z * Z * Z * Z) : Prop :=
  let '(x, y, u, w) := z in (2 <= x < 2^32 /\ 8 <= y < 2^32 /\ 16 <= u < 2^32 /\ 128 <= w < 2^32)%Z.
(** strictly increasing nodes *)
Definition increasing (xp : list R) : Prop := forall i j, (i < j < List.length xp)%nat -> nth i xp 0 < nth j xp 0.
(** the straight line through nodes [i] and [i + 1] *)
Definition line_between (xp fp : list R) (i : nat) (x : R) : R :=
  nth i fp 0 + (nth (i + 1) fp 0 - nth i fp 0) * ((x - nth i xp 0) / (nth (i + 1) xp 0 - nth i xp 0)).
Definition total (l : list R) : R := fold_right Rplus 0 l.
(** the accumulator after atomic increments of the given cells, in that order *)
Definition after_increments (acc : Z -> nat) (l : list Z) : Z -> nat := fold_left atomic_inc l acc.
Definition occurrencesZ (i : Z) (l : list Z) : nat := List.length (filter (Z.eqb i) l).
(** the simulation after exactly [k] passes of its loop, whatever the stopping rule *)
Fixpoint after_passes (P : mc_par) (n_max_steps : nat) (draws : nat -> nat -> R * R * R) (it k : nat) (m : mstate estate bin) : mstate estate bin :=
  match k with O => m | S k' => after_passes P n_max_steps draws (S it) k' (m_step _ _ _ bin_eqb (mc_step P) (fresh P) n_max_steps (draws it) m) end.
Definition mc_start (P : mc_par) (n_electrons : nat) : mstate estate bin := m_init estate bin (fresh P) n_electrons.
