(** Specification vocabulary for directions under a Laue class. *)
From Verif Require Import Base QuatModel QuatSpec LaueSpec.

(** Laue classes are centrosymmetric: directions equivalent under the rotations of the class combined with inversion. *)
Definition equiv_dir (id : Z) (p q : vec) : Prop :=
  exists g, unit_q g /\ laue_rotation id g /\ (q = qu_apply g p \/ q = vneg (qu_apply g p)).

(** the tolerance of the sector tests: 1e-12 or 1e-6 in the code *)
Definition tol_ok (eps : R) : Prop := 0 <= eps <= 1/1000000.
(** azimuth range of the fundamental sector of the non-cubic classes *)
Definition sector_of (id : Z) : R * R :=
  match id with
  | 2%Z => (0, PI) | 3%Z => (0, PI/2) | 4%Z => (0, PI/2) | 5%Z => (0, PI/4)
  | 6%Z => (- (2 * PI / 3), 0) | 7%Z => (- (PI/2), - (PI/6)) | 8%Z => (0, PI/3) | 9%Z => (0, PI/6) | _ => (0, 0)
  end.
(** [u] lies in the fundamental sector at more than the tolerance [eps] from its boundary *)
Definition interior (eps : R) (id : Z) (u : vec) : Prop :=
  match id with
  | 1%Z => 0 < vz u
  | 10%Z => 3 * eps < vx u /\ 3 * eps < vy u /\ vx u + 3 * eps < vz u /\ vy u + 3 * eps < vz u
  | 11%Z => 3 * eps < vy u /\ vy u + 3 * eps < vx u /\ vx u + 3 * eps < vz u
  | _ => sin eps < vz u /\
         exists r t, 0 < r /\ vx u = r * cos t /\ vy u = r * sin t /\ fst (sector_of id) + eps < t < snd (sector_of id) - eps
  end.
(** [u] lies in the closed fundamental sector *)
Definition closed_sector (id : Z) (u : vec) : Prop :=
  match id with
  | 1%Z => 0 <= vz u
  | 10%Z => 0 <= vx u <= vz u /\ 0 <= vy u <= vz u
  | 11%Z => 0 <= vy u <= vx u /\ vx u <= vz u
  | _ => 0 <= vz u /\ exists r t, 0 <= r /\ vx u = r * cos t /\ vy u = r * sin t /\ fst (sector_of id) <= t <= snd (sector_of id)
  end.
(** the directions the code has no representative for: the pole of the trigonal-high class, and the mirror planes
    x = 0, y = 0, z = 0 of the cubic-high class *)
Definition excluded (id : Z) (p : vec) : Prop :=
  match id with
  | 7%Z => vx p = 0 /\ vy p = 0
  | 11%Z => vx p = 0 \/ vy p = 0 \/ vz p = 0
  | _ => False
  end.
