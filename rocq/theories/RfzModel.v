(** Model of cube_to_rfz and rfz_to_cube (laue_fz_ori.py:242-317), one point.  torch.sort is not stable, so the order it returns is
    an argument: the positions of the smallest, middle and largest absolute coordinate.  Signed zeros are not distinguished. *)
From Verif Require Import Base.
Local Open Scope R_scope.

Inductive rfz_res := RfzOk (v : vec) | RfzNotImplemented.
Definition at_pos (v : vec) (i : nat) : R := match i with O => vx v | S O => vy v | _ => vz v end.
Definition vabs (v : vec) : vec := mkV (Rabs (vx v)) (Rabs (vy v)) (Rabs (vz v)).
(** the order (i, j, k) sorts the coordinates of v: i, j, k are the three positions and the values ascend (lines 264, 302) *)
Definition sorts (o : nat * nat * nat) (v : vec) : Prop :=
  let '(i, j, k) := o in
  In o [(0, 1, 2); (0, 2, 1); (1, 0, 2); (1, 2, 0); (2, 0, 1); (2, 1, 0)]%nat /\ at_pos v i <= at_pos v j /\ at_pos v j <= at_pos v k.
(** torch.scatter(x, -1, indices, x) (lines 276, 309): position indices[p] receives x[p] *)
Definition scatter3 (o : nat * nat * nat) (s : R * R * R) : vec :=
  let '(i, j, k) := o in let '(a, b, c) := s in
  let put (n : nat) := if Nat.eqb k n then c else if Nat.eqb j n then b else a in
  mkV (put 0%nat) (put 1%nat) (put 2%nat).
Definition copysign (a b : R) : R := if Rlt_dec b 0 then - Rabs a else Rabs a.
Definition vcopysign (v w : vec) : vec := mkV (copysign (vx v) (vx w)) (copysign (vy v) (vy w)) (copysign (vz v) (vz w)).
(** lines 267-272, 303-307: whether the point is in the cone of the 111 facet, and the factor; 0/0 is replaced by 1 *)
Definition cone_scaled (o : nat * nat * nat) (a : vec) : bool :=
  let '(i, j, k) := o in if Rlt_dec (at_pos a k) ((at_pos a i + at_pos a j) / sqrt 2) then true else false.
Definition cone_factor (o : nat * nat * nat) (a : vec) : R :=
  let '(i, j, k) := o in
  if Req_EM_T (at_pos a k) 0 then 1 else (vx a + vy a + vz a) * (sqrt 2 - 1) / at_pos a k.
(** lines 242-282 *)
Definition cube_to_rfz (o : nat * nat * nat) (cc : vec) (laue_group : Z) : rfz_res :=
  let a := vabs cc in let '(i, j, k) := o in
  if (laue_group =? 11)%Z then
    let f := if cone_scaled o a then cone_factor o a else 1 in
    RfzOk (vcopysign (scatter3 o (at_pos a i * f, at_pos a j * f, at_pos a k * f)) cc)
  else RfzNotImplemented.
(** lines 285-317 *)
Definition rfz_to_cube (o : nat * nat * nat) (rfz : vec) (laue_group : Z) : rfz_res :=
  let a := vabs rfz in let '(i, j, k) := o in
  if (laue_group =? 11)%Z then
    let f := if cone_scaled o a then cone_factor o a else 1 in
    RfzOk (vcopysign (scatter3 o (at_pos a i / f, at_pos a j / f, at_pos a k / f)) rfz)
  else RfzNotImplemented.
