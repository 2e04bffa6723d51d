(** Specification vocabulary for MasterPattern. *)
From Coq Require Import String.
From Verif Require Import Base QuatModel OriModel SymModel Se3Model GeomModel ExpModel MpModel.
Open Scope R_scope.

Definition exactly_one {A B C} (a : option A) (b : option B) (c : option C) : Prop :=
  (a <> None /\ b = None /\ c = None) \/ (a = None /\ b <> None /\ c = None) \/ (a = None /\ b = None /\ c <> None).
(** an object obtained from the constructor by any sequence of successful calls *)
Definition reachable (rnd : nat -> Z) (fuel : nat) (s : mp_state) : Prop :=
  exists a l p g s0 os, mp_init a l p g = Ok s0 /\ mp_run rnd fuel s0 os s.
(** all pixels of the image lie in [lo, hi] *)
Definition pixels_within (m : image) (lo hi : R) : Prop := forall r c, (r < i_h m)%nat -> (c < i_w m)%nat -> lo <= px m r c <= hi.
(** the two images have the same shape and the same pixels in columns a..b-1 *)
Definition same_columns (a b : nat) (m m' : image) : Prop := i_h m = i_h m' /\ i_w m = i_w m' /\ forall r c, (r < i_h m)%nat -> (a <= c < b)%nat -> px m r c = px m' r c.
(** what interpolation at binning [b] should look at: the current pattern for b <= 1, its block means otherwise *)
Definition current_image (s : mp_state) (b : Z) : res image := if Z.ltb 1 b then pool (Z.to_nat b) (m_img s) else Ok (m_img s).

(** the detector directions of a batch of grains (twist of the detector, orientation, inverse deformation gradient), grain by grain, as the
    tensor hrebsd_coords returns them; [None] inside: a zero vector was normalised *)
Definition batch_coords (a b : bool3) (grains : list (twist * quat * mat)) (shape : nat * nat) (bin : nat) (coords : list vec) : Prop :=
  exists parts, map Some coords = concat parts /\ List.length parts = List.length grains /\
    forall g v q f l, nth_error grains g = Some (v, q, f) -> nth_error parts g = Some l -> hrebsd_coords a b v q f shape bin = HCoords l.
