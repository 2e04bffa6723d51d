(** Specification vocabulary for factorisation. *)
From Coq Require Import ZArith List Znumtheory Sorted.
Import ListNotations.
Open Scope Z_scope.
Definition zprod (l : list Z) : Z := fold_right Z.mul 1 l.
Definition ascending (l : list Z) : Prop := StronglySorted Z.le l.
