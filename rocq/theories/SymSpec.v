(** The 32 crystal classes, the space groups belonging to each (International Tables for Crystallography A) and the
    Laue class (the class obtained by adding an inversion centre).  Independent of the code. *)
From Coq Require Import ZArith List String.
Import ListNotations.
Open Scope string_scope.
Open Scope Z_scope.

Inductive crystal_class :=
| P1 | Pbar1 | P2 | Pm | P2_m | P222 | Pmm2 | Pmmm | P4 | Pbar4 | P4_m | P422 | P4mm | Pbar42m | P4_mmm
| P3 | Pbar3 | P32 | P3m | Pbar3m | P6 | Pbar6 | P6_m | P622 | P6mm | Pbar6m2 | P6_mmm | P23 | Pmbar3 | P432 | Pbar43m | Pmbar3m.

(** first and last space-group number of each class, in ITA order *)
Definition ita : list (crystal_class * (Z * Z)) := [
  (P1,(1,1)); (Pbar1,(2,2));
  (P2,(3,5)); (Pm,(6,9)); (P2_m,(10,15));
  (P222,(16,24)); (Pmm2,(25,46)); (Pmmm,(47,74));
  (P4,(75,80)); (Pbar4,(81,82)); (P4_m,(83,88)); (P422,(89,98)); (P4mm,(99,110)); (Pbar42m,(111,122)); (P4_mmm,(123,142));
  (P3,(143,146)); (Pbar3,(147,148)); (P32,(149,155)); (P3m,(156,161)); (Pbar3m,(162,167));
  (P6,(168,173)); (Pbar6,(174,174)); (P6_m,(175,176)); (P622,(177,182)); (P6mm,(183,186)); (Pbar6m2,(187,190)); (P6_mmm,(191,194));
  (P23,(195,199)); (Pmbar3,(200,206)); (P432,(207,214)); (Pbar43m,(215,220)); (Pmbar3m,(221,230)) ].
Definition belongs (sg : Z) (c : crystal_class) : Prop := exists a b, In (c, (a, b)) ita /\ a <= sg <= b.

(** Laue class, numbered as in the package: 1 triclinic -1, 2 monoclinic 2/m, 3 mmm, 4 4/m, 5 4/mmm, 6 -3, 7 -3m, 8 6/m,
    9 6/mmm, 10 m-3, 11 m-3m. *)
Definition laue_of (c : crystal_class) : Z :=
  match c with
  | P1 | Pbar1 => 1
  | P2 | Pm | P2_m => 2
  | P222 | Pmm2 | Pmmm => 3
  | P4 | Pbar4 | P4_m => 4
  | P422 | P4mm | Pbar42m | P4_mmm => 5
  | P3 | Pbar3 => 6
  | P32 | P3m | Pbar3m => 7
  | P6 | Pbar6 | P6_m => 8
  | P622 | P6mm | Pbar6m2 | P6_mmm => 9
  | P23 | Pmbar3 => 10
  | P432 | Pbar43m | Pmbar3m => 11
  end.
(** Hermann-Mauguin symbol, the bar written as a minus sign after the digit (the package's convention). *)
Definition symbol (c : crystal_class) : string :=
  match c with
  | P1 => "1" | Pbar1 => "1-" | P2 => "2" | Pm => "m" | P2_m => "2/m" | P222 => "222" | Pmm2 => "mm2" | Pmmm => "mmm"
  | P4 => "4" | Pbar4 => "4-" | P4_m => "4/m" | P422 => "422" | P4mm => "4mm" | Pbar42m => "4-2m" | P4_mmm => "4/mmm"
  | P3 => "3" | Pbar3 => "3-" | P32 => "32" | P3m => "3m" | Pbar3m => "3-m"
  | P6 => "6" | Pbar6 => "6-" | P6_m => "6/m" | P622 => "622" | P6mm => "6mm" | Pbar6m2 => "6-m2" | P6_mmm => "6/mmm"
  | P23 => "23" | Pmbar3 => "m3-" | P432 => "432" | Pbar43m => "4-3m" | Pmbar3m => "m3-m"
  end.
