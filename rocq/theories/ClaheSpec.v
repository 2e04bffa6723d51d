(** Specification vocabulary for CLAHE. *)
From Verif Require Import Base MpModel MpSpec.
Open Scope R_scope.
(** a nondecreasing map of [0, 1] into itself *)
Definition tone_curve (f : R -> R) : Prop := (forall v, 0 <= f v <= 1) /\ forall v v', v <= v' -> f v <= f v'.
(** a proper image: one entry per pixel *)
Definition proper (m : image) : Prop := List.length (i_px m) = (i_h m * i_w m)%nat.
(** reflect padding at the end of an axis of n pixels: row i of the padded image is row r of the image; the last row is not repeated *)
Definition mirror_of (n i r : nat) : Prop := ((i < n /\ r = i) \/ (n <= i /\ i + r = 2 * (n - 1)))%nat.
(** linear interpolation over integer nodes 0 .. n-1: the node k has the triangular weight [hat (x - k)] *)
Definition hat (t : R) : R := Rmax 0 (1 - Rabs t).
Fixpoint isum (n : nat) (f : nat -> R) : R := match n with O => 0 | S k => isum k f + f k end.
Definition clampR (lo hi x : R) : R := Rmin hi (Rmax lo x).
(** position of pixel i of an axis of n pixels among g tiles: the first pixel is half a tile before the centre of tile 0, the last one half a
    tile after the centre of tile g - 1; clamped to the centres.  (An axis of a single pixel: 0.) *)
Definition tile_pos (g n i : nat) : R := clampR 0 (INR (g - 1)) (INR i / INR (n - 1) * INR g - 1 / 2).
(** position of a grey value among nb levels *)
Definition level_pos (nb : nat) (v : R) : R := clampR 0 (INR (nb - 1)) (v * INR nb - 1 / 2).
(** number of values x of a list with x * (nb - 1) < k + 1, i.e. of grey level at most k *)
Definition at_most_level (nb k : nat) (l : list R) : nat := List.length (filter (fun x => if Rlt_dec (x * INR (nb - 1)) (INR (S k)) then true else false) l).
