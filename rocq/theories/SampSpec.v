(** Contracts of the external primitives used by the samplers. *)
From Coq Require Import Permutation.
From Verif Require Import Base QuatModel CuboModel CuboSpec.
(** torch.argsort(|v|): some permutation that sorts by magnitude, ties in any order *)
Definition argsort_ok (srt : vec -> perm3) : Prop := forall v, sorts (srt v) v.
(** indexing with torch.randperm: some permutation of the rows *)
Definition randperm_ok (perm : list quat -> list quat) : Prop := forall l, Permutation l (perm l).
(** a row of torch.rand(n, 3) *)
Definition draw_ok (u : vec) : Prop := 0 <= vx u < 1 /\ 0 <= vy u < 1 /\ 0 <= vz u < 1.
