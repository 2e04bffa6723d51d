(** Specification of a table of per-pattern values that is written as a whole or at indices. *)
From Verif Require Import Base ExpModel.

Inductive wop := SetAll (rows : list row) | SetAt (is : list Z) (rows : list row).
(** the Python index [z] denotes position [i] of [n] *)
Definition addresses (n : nat) (z : Z) (i : nat) : Prop := (z = Z.of_nat i \/ z = Z.of_nat i - Z.of_nat n)%Z.
(** [value_at n h i v]: after the history [h] (latest call first) position [i] holds [v] *)
Inductive value_at (n : nat) : list wop -> nat -> row -> Prop :=
| va_all rows h i v : nth_error rows i = Some v -> value_at n (SetAll rows :: h) i v
| va_hit is rows h i k z v : nth_error is k = Some z -> addresses n z i ->
    (forall k' z', (k < k')%nat -> nth_error is k' = Some z' -> ~ addresses n z' i) ->
    nth_error rows k = Some v -> value_at n (SetAt is rows :: h) i v
| va_miss is rows h i v : (forall z, In z is -> ~ addresses n z i) -> value_at n h i v -> value_at n (SetAt is rows :: h) i v.

(** the histories of API calls, latest first *)
Definition width4 (rows : list row) : list nat := [List.length rows; 4%nat].
Definition ori_apply (o : wop) (s : exp_state) : res exp_state :=
  match o with SetAll rows => set_orientations s (width4 rows) rows None | SetAt is rows => set_orientations s (width4 rows) rows (Some is) end.
Definition coord_apply (o : wop) (s : exp_state) : res exp_state :=
  match o with SetAll rows => set_spatial_coords s rows None | SetAt is rows => set_spatial_coords s rows (Some is) end.
Fixpoint replay (f : wop -> exp_state -> res exp_state) (s : exp_state) (h : list wop) : res exp_state :=
  match h with [] => Ok s | o :: r => match replay f s r with Ok s' => f o s' | Err e => Err e end end.

Definition sum_rows (l : list R) : R := fold_right Rplus 0 l.
Definition mean_rows (l : list R) : R := sum_rows l / INR (List.length l).
