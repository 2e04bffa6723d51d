(** Shapes accepted by quaternion_rotate_sets_sphere (quaternions.py:230-267) for points of shape batch ++ [3] (both arguments alike). *)
From Verif Require Import Base.

Inductive shape_res := ShapeOk (s : list nat) | ShapeError.
(** Writing values of shape [v] into an indexing result of shape [r]: the values are broadcast from the right.  Shapes in reverse. *)
Fixpoint fits_rev (v r : list nat) : bool :=
  match v, r with
  | [], _ => true
  | a :: v', b :: r' => (Nat.eqb a b || Nat.eqb a 1) && fits_rev v' r'
  | _ :: _, [] => false
  end.
Definition fits (v r : list nat) : bool := fits_rev (rev v) (rev r).
(** Shape of out[mask, i] and out[mask, 1:] for a boolean mask with [count] true entries: the mask stands for as many leading dimensions
    as it has, which must agree in size, and becomes one dimension of size [count] (a mask without dimensions adds one); the integer removes
    the next dimension, the slice 1: shortens it by one.  [None]: too many indices, or a mask of another size (IndexError). *)
Definition masked (out mask : list nat) (count : nat) (slice : bool) : option (list nat) :=
  if (Nat.leb (length mask + 1) (length out) && (if list_eq_dec Nat.eq_dec (firstn (length mask) out) mask then true else false))%bool
  then Some ([count] ++ (if slice then [nth (length mask) out 0 - 1] else []) ++ skipn (length mask + 1) out)%nat
  else None.
Definition writes (target : option (list nat)) (v : list nat) : bool := match target with Some r => fits v r | None => false end.
(** quaternions.py:248-267: the mask [valid] has shape batch and [m] true entries; points_start[valid] has shape [m; 3]; lines 257-259
    allocate out with points_start.shape[0] rows (3 for a single point) and 4 columns; lines 260-264 write [m] and [m; 3] values, lines
    265-266 numbers. *)
Definition rotate_sets_shape (batch : list nat) (m : nat) : shape_res :=
  let out := [hd 0 (batch ++ [3]); 4]%nat in
  if (writes (masked out batch m false) [m] && writes (masked out batch m true) [m; 3]%nat)%bool then ShapeOk out else ShapeError.
