(** Model of ebsdtorch/utils/progressbar.py:12-62.  The events a consumer and the output stream see, in order: an item is
    yielded, then (when the consumer resumes) a bar is drawn.  Timing strings (lines 33-52) are not modelled. *)
From Coq Require Import ZArith List Lia.
Import ListNotations.
Open Scope Z_scope.
Inductive event (A : Type) := Yield (a : A) | Bar (filled dots j count : Z).
Arguments Yield {A}. Arguments Bar {A}.
(** progressbar.py:28-31,54-55: j = i + 1; x = int(size * j / count); bar of x blocks and size-x dots (a negative repeat gives
    the empty string).  int() of a non-negative quotient is the floor. *)
Definition bar {A} (size j count : Z) : event A := let x := size * j / count in Bar (Z.max 0 x) (Z.max 0 (size - x)) j count.
Fixpoint loop {A} (size count : Z) (i : Z) (items : list A) : list (event A) :=
  match items with [] => [] | a :: r => Yield a :: bar size (i + 1) count :: loop size count (i + 1) r end.
Definition progressbar {A} (size : Z) (items : list A) : list (event A) := loop size (Z.of_nat (length items)) 0 items.
