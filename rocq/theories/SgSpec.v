(** Specification vocabulary for space groups: what International Tables say, independently of the generator strings. *)
From Coq Require Import Reals ZArith List String Ascii Bool Lia.
From Verif Require Import SgModel.
Import ListNotations.
Open Scope Z_scope.

(** the operator's action on fractional coordinates (24ths) *)
Definition act (o : sop) (p : Z * Z * Z) : Z * Z * Z :=
  let '(x, y, z) := p in (r11 o * x + r12 o * y + r13 o * z + t1 o, r21 o * x + r22 o * y + r23 o * z + t2 o, r31 o * x + r32 o * y + r33 o * z + t3 o).
(** equal up to a lattice vector *)
Definition lattice_eq (p q : Z * Z * Z) : Prop :=
  let '(x, y, z) := p in let '(u, v, w) := q in (24 | x - u) /\ (24 | y - v) /\ (24 | z - w).
(** [c] is the composition of [a] after [b] on every position, up to lattice vectors *)
Definition composes (a b c : sop) : Prop := forall p, lattice_eq (act c p) (act a (act b p)).
Definition does_nothing (o : sop) : Prop := forall p, lattice_eq (act o p) p.
(** the linear part and the translation coincide *)
Definition same_operator (a b : sop) : Prop := forall p, lattice_eq (act a p) (act b p).
(** a finite set of operators that is a group modulo the lattice, without repetitions *)
Definition is_group (ops : list sop) : Prop :=
  (exists e, In e ops /\ does_nothing e) /\
  (forall a b, In a ops -> In b ops -> exists c, In c ops /\ composes a b c) /\
  (forall a, In a ops -> exists b e, In b ops /\ composes a b e /\ does_nothing e) /\
  (forall i j a b, nth_error ops i = Some a -> nth_error ops j = Some b -> same_operator a b -> i = j).
(** International Tables: first space group of the 32 crystal classes, of the 7 crystal systems *)
Definition class_begin : list nat := [1;2;3;6;10;16;25;47;75;81;83;89;99;111;123;143;147;149;156;162;168;174;175;177;183;187;191;195;200;207;215;221]%nat.
Definition system_begin : list nat := [1; 3; 16; 75; 143; 168; 195]%nat.
Definition count_upto (sg : nat) (l : list nat) : nat := List.length (filter (fun b => Nat.leb b sg) l).
(** number of the crystal class (1-32) and crystal system (1-7) of a space group: the last one that begins at or before it *)
Definition crystal_class (sg : nat) : nat := count_upto sg class_begin.
Definition crystal_system (sg : nat) : nat := count_upto sg system_begin.
(** Laue class of each crystal class: -1, 2/m, mmm, 4/m, 4/mmm, -3, -3m, 6/m, 6/mmm, m-3, m-3m *)
Definition class_laue : list nat := [1;1; 2;2;2; 3;3;3; 4;4;4; 5;5;5;5; 6;6; 7;7;7; 8;8;8; 9;9;9;9; 10;10; 11;11;11]%nat.
Definition laue_class (sg : nat) : nat := nth (crystal_class sg - 1) class_laue 0%nat.
(** how many rotations 1 2 3 4 6 and roto-inversions -1 m -3 -4 -6 each crystal class contains *)
Definition class_elements : list (list nat) :=
 [[1;0;0;0;0;0;0;0;0;0]; [1;0;0;0;0;1;0;0;0;0];
  [1;1;0;0;0;0;0;0;0;0]; [1;0;0;0;0;0;1;0;0;0]; [1;1;0;0;0;1;1;0;0;0];
  [1;3;0;0;0;0;0;0;0;0]; [1;1;0;0;0;0;2;0;0;0]; [1;3;0;0;0;1;3;0;0;0];
  [1;1;0;2;0;0;0;0;0;0]; [1;1;0;0;0;0;0;0;2;0]; [1;1;0;2;0;1;1;0;2;0]; [1;5;0;2;0;0;0;0;0;0]; [1;1;0;2;0;0;4;0;0;0]; [1;3;0;0;0;0;2;0;2;0]; [1;5;0;2;0;1;5;0;2;0];
  [1;0;2;0;0;0;0;0;0;0]; [1;0;2;0;0;1;0;2;0;0]; [1;3;2;0;0;0;0;0;0;0]; [1;0;2;0;0;0;3;0;0;0]; [1;3;2;0;0;1;3;2;0;0];
  [1;1;2;0;2;0;0;0;0;0]; [1;0;2;0;0;0;1;0;0;2]; [1;1;2;0;2;1;1;2;0;2]; [1;7;2;0;2;0;0;0;0;0]; [1;1;2;0;2;0;6;0;0;0]; [1;3;2;0;0;0;4;0;0;2]; [1;7;2;0;2;1;7;2;0;2];
  [1;3;8;0;0;0;0;0;0;0]; [1;3;8;0;0;1;3;8;0;0]; [1;9;8;6;0;0;0;0;0;0]; [1;3;8;0;0;0;6;0;6;0]; [1;9;8;6;0;1;9;8;6;0]]%nat.
Definition det (o : sop) : Z := r11 o * (r22 o * r33 o - r23 o * r32 o) - r12 o * (r21 o * r33 o - r23 o * r31 o) + r13 o * (r21 o * r32 o - r22 o * r31 o).
Definition trace (o : sop) : Z := r11 o + r22 o + r33 o.
(** determinant and trace of the ten types *)
Definition element_types : list (Z * Z) := [(1, 3); (1, -1); (1, 0); (1, 1); (1, 2); (-1, -3); (-1, 1); (-1, 0); (-1, -1); (-1, -2)].
Definition of_type (dt : Z * Z) (o : sop) : bool := ((det o =? fst dt) && (trace o =? snd dt))%bool.
(** how many translations a lattice cell contains, and which (24ths) *)
Definition centering (c : ascii) : list (Z * Z * Z) :=
  match c with
  | "P" => [(0, 0, 0)] | "A" => [(0, 0, 0); (0, 12, 12)] | "B" => [(0, 0, 0); (12, 0, 12)] | "C" => [(0, 0, 0); (12, 12, 0)]
  | "I" => [(0, 0, 0); (12, 12, 12)] | "F" => [(0, 0, 0); (0, 12, 12); (12, 0, 12); (12, 12, 0)] | "R" => [(0, 0, 0); (16, 8, 8); (8, 16, 16)]
  | _ => []
  end%char.
Definition lattice_letter (sg : nat) : ascii := match get (sg - 1) sg_letters with Some c => c | None => "?"%char end.
Definition linear_identity (o : sop) : Prop :=
  r11 o = 1 /\ r12 o = 0 /\ r13 o = 0 /\ r21 o = 0 /\ r22 o = 1 /\ r23 o = 0 /\ r31 o = 0 /\ r32 o = 0 /\ r33 o = 1.
Definition trans_of (o : sop) : Z * Z * Z := (t1 o, t2 o, t3 o).
(** a symmetric metric tensor (g11, g22, g33, g12, g13, g23), and the metrics of each crystal system (rhombohedral groups on hexagonal axes) *)
Definition metric := (R * R * R * R * R * R)%type.
Definition of_system (s : nat) (g : metric) : Prop :=
  let '(g11, g22, g33, g12, g13, g23) := g in
  match s with
  | 1%nat => True
  | 2%nat => g12 = 0%R /\ g23 = 0%R
  | 3%nat => g12 = 0%R /\ g13 = 0%R /\ g23 = 0%R
  | 4%nat => g11 = g22 /\ g12 = 0%R /\ g13 = 0%R /\ g23 = 0%R
  | 5%nat | 6%nat => g11 = g22 /\ g11 = (-2 * g12)%R /\ g13 = 0%R /\ g23 = 0%R
  | _ => g11 = g22 /\ g22 = g33 /\ g12 = 0%R /\ g13 = 0%R /\ g23 = 0%R
  end.
(** squared length *)
Definition quad (g : metric) (x y z : R) : R :=
  let '(g11, g22, g33, g12, g13, g23) := g in
  (g11 * x * x + g22 * y * y + g33 * z * z + 2 * g12 * x * y + 2 * g13 * x * z + 2 * g23 * y * z)%R.
(** the linear part preserves lengths *)
Definition isometry (g : metric) (o : sop) : Prop := forall x y z : R,
  quad g (IZR (r11 o) * x + IZR (r12 o) * y + IZR (r13 o) * z) (IZR (r21 o) * x + IZR (r22 o) * y + IZR (r23 o) * z) (IZR (r31 o) * x + IZR (r32 o) * y + IZR (r33 o) * z) = quad g x y z.
(** a translation (24ths) leaves the phase of reflection (h, k, l) unchanged *)
Definition in_phase (h k l : Z) (t : Z * Z * Z) : Prop := let '(x, y, z) := t in (24 | h * x + k * y + l * z).
(** products of the given operators, up to lattice vectors *)
Inductive generated (gens : list sop) : sop -> Prop :=
| gen_in g : In g gens -> generated gens g
| gen_mul a b c : generated gens a -> generated gens b -> composes a b c -> generated gens c.
