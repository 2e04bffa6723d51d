(** Tests on the operators of a group: which of the eight chambers of the square reach a kept one (evaluated in SgCheck). *)
From Coq Require Import ZArith List String Ascii Bool Lia.
From Verif Require Import SgModel SgSpec KvModel KvSpec.
Import ListNotations.
Open Scope Z_scope.

(** signed permutations of the plane: (a b; c d) *)
Definition hs : list (Z * Z * Z * Z) :=
  [(1,0,0,1); (-1,0,0,1); (1,0,0,-1); (-1,0,0,-1); (0,1,1,0); (0,-1,1,0); (0,1,-1,0); (0,-1,-1,0)].
Definition plane_op (o : sop) (s : Z) : option (Z * Z * Z * Z * Z) :=
  if ((r13 o =? 0) && (r23 o =? 0) && (r31 o =? 0) && (r32 o =? 0) && (Z.abs (r33 o) =? 1) && (Z.abs (r11 o) =? Z.abs (r22 o)) && (Z.abs (r12 o) =? Z.abs (r21 o)) && (Z.abs (r11 o) + Z.abs (r12 o) =? 1))%bool
  then Some (s * r11 o, s * r12 o, s * r21 o, s * r22 o, s * r33 o) else None.
Definition reaches (st : Z) (h : Z * Z * Z * Z) (f : Z) (o : sop) (s : Z) : bool :=
  match plane_op o s with
  | None => false
  | Some (a, b, c, d, e) => let '(p, q, r, t) := h in
      let i := p * 2 + q in let j := r * 2 + t in
      (kept_square st (a * i + b * j) (c * i + d * j) && (both_hemispheres st || (e * f =? 1)))%bool
  end.
Definition chk (st : Z) (ss : list Z) (ops : list sop) : bool :=
  (is_square_type st && forallb (fun h => forallb (fun f => existsb (fun o => existsb (fun s => reaches st h f o s) ss) ops) [1; -1]) hs)%bool.

(** groups for which the default type is right up to inversion *)
Definition laue_groups : list nat := (seq 1 123 ++ seq 192 3 ++ seq 195 36)%list.
Definition sq_groups : list nat := (seq 1 142 ++ seq 192 39)%list.
Definition memb (l : list nat) (n : nat) : bool := existsb (Nat.eqb n) l.
Definition cover_test (sg : nat) (ops : list sop) : bool :=
  (implb (memb laue_groups sg) (chk (chosen_type sg) [1; -1] ops) && implb (memb class_groups sg) (chk (chosen_type sg) [1] ops) && implb (negb (memb [192; 193; 194]%nat sg)) (chk (emsoft_type sg) [1] ops))%bool.
