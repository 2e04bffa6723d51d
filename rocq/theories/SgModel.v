(** Model of ebsdtorch/crystallography/groups.py: generator strings of the 230 space groups and their closure.
    Translations are kept as integers, in units of 1/24 (all entries of trans_map are multiples of 1/24); the comparisons with tolerance 5e-4
    are modelled as equality (sg_tolerance in SgProps justifies this for multiples of 1/24). *)
From Coq Require Import ZArith List String Ascii Bool Lia.
Import ListNotations.
Open Scope string_scope.
Open Scope Z_scope.

(** groups.py:112-192 *)
Definition sg_gen_strings : list string :=
[ "000                                     "; "100                                     "; "01cOOO0                                 "; "01cODO0                                 "; "02aDDOcOOO0                             "; "01jOOO0                                 "; "01jOOD0                                 "; "02aDDOjOOO0                             ";
  "02aDDOjOOD0                             "; "11cOOO0                                 "; "11cODO0                                 "; "12aDDOcOOO0                             "; "11cOOD0                                 "; "11cODD0                                 "; "12aDDOcOOD0                             "; "02bOOOcOOO0                             ";
  "02bOODcOOD0                             "; "02bOOOcDDO0                             "; "02bDODcODD0                             "; "03aDDObOODcOOD0                         "; "03aDDObOOOcOOO0                         "; "04aODDaDODbOOOcOOO0                     "; "03aDDDbOOOcOOO0                         "; "03aDDDbDODcODD0                         ";
  "02bOOOjOOO0                             "; "02bOODjOOD0                             "; "02bOOOjOOD0                             "; "02bOOOjDOO0                             "; "02bOODjDOO0                             "; "02bOOOjODD0                             "; "02bDODjDOD0                             "; "02bOOOjDDO0                             ";
  "02bOODjDDO0                             "; "02bOOOjDDD0                             "; "03aDDObOOOjOOO0                         "; "03aDDObOODjOOD0                         "; "03aDDObOOOjOOD0                         "; "03aODDbOOOjOOO0                         "; "03aODDbOOOjODO0                         "; "03aODDbOOOjDOO0                         ";
  "03aODDbOOOjDDO0                         "; "04aODDaDODbOOOjOOO0                     "; "04aODDaDODbOOOjBBB0                     "; "03aDDDbOOOjOOO0                         "; "03aDDDbOOOjDDO0                         "; "03aDDDbOOOjDOO0                         "; "12bOOOcOOO0                             "; "03bOOOcOOOhDDD1BBB                      ";
  "12bOOOcOOD0                             "; "03bOOOcOOOhDDO1BBO                      "; "12bDOOcOOO0                             "; "12bDOOcDDD0                             "; "12bDODcDOD0                             "; "12bDOOcOOD0                             "; "12bOOOcDDO0                             "; "12bDDOcODD0                             ";
  "12bOODcODD0                             "; "12bOOOcDDD0                             "; "03bOOOcDDOhDDO1BBO                      "; "12bDDDcOOD0                             "; "12bDODcODD0                             "; "12bDODcODO0                             "; "13aDDObOODcOOD0                         "; "13aDDObODDcODD0                         ";
  "13aDDObOOOcOOO0                         "; "13aDDObOOOcOOD0                         "; "13aDDObODOcODO0                         "; "04aDDObDDOcOOOhODD1OBB                  "; "14aODDaDODbOOOcOOO0                     "; "05aODDaDODbOOOcOOOhBBB1ZZZ              "; "13aDDDbOOOcOOO0                         "; "13aDDDbOOOcDDO0                         ";
  "13aDDDbDODcODD0                         "; "13aDDDbODOcODO0                         "; "02bOOOgOOO0                             "; "02bOODgOOB0                             "; "02bOOOgOOD0                             "; "02bOODgOOF0                             "; "03aDDDbOOOgOOO0                         "; "03aDDDbDDDgODB0                         ";
  "02bOOOmOOO0                             "; "03aDDDbOOOmOOO0                         "; "12bOOOgOOO0                             "; "12bOOOgOOD0                             "; "03bOOOgDDOhDDO1YBO                      "; "03bOOOgDDDhDDD1YYY                      "; "13aDDDbOOOgOOO0                         "; "04aDDDbDDDgODBhODB1OYZ                  ";
  "03bOOOgOOOcOOO0                         "; "03bOOOgDDOcDDO0                         "; "03bOODgOOBcOOO0                         "; "03bOODgDDBcDDB0                         "; "03bOOOgOODcOOO0                         "; "03bOOOgDDDcDDD0                         "; "03bOODgOOFcOOO0                         "; "03bOODgDDFcDDF0                         ";
  "04aDDDbOOOgOOOcOOO0                     "; "04aDDDbDDDgODBcDOF0                     "; "03bOOOgOOOjOOO0                         "; "03bOOOgOOOjDDO0                         "; "03bOOOgOODjOOD0                         "; "03bOOOgDDDjDDD0                         "; "03bOOOgOOOjOOD0                         "; "03bOOOgOOOjDDD0                         ";
  "03bOOOgOODjOOO0                         "; "03bOOOgOODjDDO0                         "; "04aDDDbOOOgOOOjOOO0                     "; "04aDDDbOOOgOOOjOOD0                     "; "04aDDDbDDDgODBjOOO0                     "; "04aDDDbDDDgODBjOOD0                     "; "03bOOOmOOOcOOO0                         "; "03bOOOmOOOcOOD0                         ";
  "03bOOOmOOOcDDO0                         "; "03bOOOmOOOcDDD0                         "; "03bOOOmOOOjOOO0                         "; "03bOOOmOOOjOOD0                         "; "03bOOOmOOOjDDO0                         "; "03bOOOmOOOjDDD0                         "; "04aDDDbOOOmOOOjOOO0                     "; "04aDDDbOOOmOOOjOOD0                     ";
  "04aDDDbOOOmOOOcOOO0                     "; "04aDDDbOOOmOOOcDOF0                     "; "13bOOOgOOOcOOO0                         "; "13bOOOgOOOcOOD0                         "; "04bOOOgOOOcOOOhDDO1YYO                  "; "04bOOOgOOOcOOOhDDD1YYY                  "; "13bOOOgOOOcDDO0                         "; "13bOOOgOOOcDDD0                         ";
  "04bOOOgDDOcDDOhDDO1YBO                  "; "04bOOOgDDOcDDDhDDO1YBO                  "; "13bOOOgOODcOOO0                         "; "13bOOOgOODcOOD0                         "; "04bOOOgDDDcOODhDDD1YBY                  "; "04bOOOgDDDcOOOhDDD1YBY                  "; "13bOOOgOODcDDO0                         "; "13bOOOgDDDcDDD0                         ";
  "04bOOOgDDDcDDDhDDD1YBY                  "; "04bOOOgDDDcDDOhDDD1YBY                  "; "14aDDDbOOOgOOOcOOO0                     "; "14aDDDbOOOgOOOcOOD0                     "; "05aDDDbDDDgODBcDOFhODB1OBZ              "; "05aDDDbDDDgODBcDOBhODB1OBZ              "; "01nOOO0                                 "; "01nOOC0                                 ";
  "01nOOE0                                 "; "02aECCnOOO0                             "; "11nOOO0                                 "; "12aECCnOOO0                             "; "02nOOOfOOO0                             "; "02nOOOeOOO0                             "; "02nOOCfOOE0                             "; "02nOOCeOOO0                             ";
  "02nOOEfOOC0                             "; "02nOOEeOOO0                             "; "03aECCnOOOeOOO0                         "; "02nOOOkOOO0                             "; "02nOOOlOOO0                             "; "02nOOOkOOD0                             "; "02nOOOlOOD0                             "; "03aECCnOOOkOOO0                         ";
  "03aECCnOOOkOOD0                         "; "12nOOOfOOO0                             "; "12nOOOfOOD0                             "; "12nOOOeOOO0                             "; "12nOOOeOOD0                             "; "13aECCnOOOeOOO0                         "; "13aECCnOOOeOOD0                         "; "02nOOObOOO0                             ";
  "02nOOCbOOD0                             "; "02nOOEbOOD0                             "; "02nOOEbOOO0                             "; "02nOOCbOOO0                             "; "02nOOObOOD0                             "; "02nOOOiOOO0                             "; "12nOOObOOO0                             "; "12nOOObOOD0                             ";
  "03nOOObOOOeOOO0                         "; "03nOOCbOODeOOC0                         "; "03nOOEbOODeOOE0                         "; "03nOOEbOOOeOOE0                         "; "03nOOCbOOOeOOC0                         "; "03nOOObOODeOOO0                         "; "03nOOObOOOkOOO0                         "; "03nOOObOOOkOOD0                         ";
  "03nOOObOODkOOD0                         "; "03nOOObOODkOOO0                         "; "03nOOOiOOOkOOO0                         "; "03nOOOiOODkOOD0                         "; "03nOOOiOOOeOOO0                         "; "03nOOOiOODeOOO0                         "; "13nOOObOOOeOOO0                         "; "13nOOObOOOeOOD0                         ";
  "13nOOObOODeOOD0                         "; "13nOOObOODeOOO0                         "; "03bOOOcOOOdOOO0                         "; "05aODDaDODbOOOcOOOdOOO0                 "; "04aDDDbOOOcOOOdOOO0                     "; "03bDODcODDdOOO0                         "; "04aDDDbDODcODDdOOO0                     "; "13bOOOcOOOdOOO0                         ";
  "04bOOOcOOOdOOOhDDD1YYY                  "; "15aODDaDODbOOOcOOOdOOO0                 "; "06aODDaDODbOOOcOOOdOOOhBBB1ZZZ          "; "14aDDDbOOOcOOOdOOO0                     "; "13bDODcODDdOOO0                         "; "14aDDDbDODcODDdOOO0                     "; "04bOOOcOOOdOOOeOOO0                     "; "04bOOOcOOOdOOOeDDD0                     ";
  "06aODDaDODbOOOcOOOdOOOeOOO0             "; "06aODDaDODbODDcDDOdOOOeFBF0             "; "05aDDDbOOOcOOOdOOOeOOO0                 "; "04bDODcODDdOOOeBFF0                     "; "04bDODcODDdOOOeFBB0                     "; "05aDDDbDODcODDdOOOeFBB0                 "; "04bOOOcOOOdOOOlOOO0                     "; "06aODDaDODbOOOcOOOdOOOlOOO0             ";
  "05aDDDbOOOcOOOdOOOlOOO0                 "; "04bOOOcOOOdOOOlDDD0                     "; "06aODDaDODbOOOcOOOdOOOlDDD0             "; "05aDDDbDODcODDdOOOlBBB0                 "; "14bOOOcOOOdOOOeOOO0                     "; "05bOOOcOOOdOOOeOOOhDDD1YYY              "; "14bOOOcOOOdOOOeDDD0                     "; "05bOOOcOOOdOOOeDDDhDDD1YYY              ";
  "16aODDaDODbOOOcOOOdOOOeOOO0             "; "16aODDaDODbOOOcOOOdOOOeDDD0             "; "07aODDaDODbODDcDDOdOOOeFBFhBBB1ZZZ      "; "07aODDaDODbODDcDDOdOOOeFBFhFFF1XXX      "; "15aDDDbOOOcOOOdOOOeOOO0                 "; "15aDDDbDODcODDdOOOeFBB0                 "; "01dOOO0                                 "; "11dOOO0                                 ";
  "02dOOOfOOO0                             "; "02dOOOlOOO0                             "; "02dOOOlDDD0                             "; "12dOOOfOOO0                             "; "12dOOOfDDD0                             " ].
(** groups.py:48-110: only the second character (the centering letter, unit_cell.py:832) is used *)
Definition sg_letters : string :=
  "PPPPCPPCCPPCPPCPPPPCCFIIPPPPPPPPPPCCCAAAAFFIIIPPPPPPPPPPPPPPPPCCCCCCFFIIIIPPPPIIPIPPPPIIPPPPPPPPIIPPPPPPPPIIIIPPPPPPPPIIIIPPPPPPPPPPPPPPPPIIIIPPPRPRPPPPPPRPPPPRRPPPPRRPPPPPPPPPPPPPPPPPPPPPPPPPPPPFIPIPPFFIPIPPFFIPPIPFIPFIPPPPFFFFIIRRRRRRR".
(** groups.py:194-201 *)
Definition sg_ords : list nat := [1; 2; 2; 2; 4; 2; 2; 4; 4; 4; 4; 8; 4; 4; 8; 4; 4; 4; 4; 8; 8; 16; 8; 8; 4; 4; 4; 4; 4; 4; 4; 4; 4; 4; 8; 8; 8; 8; 8; 8; 8; 16; 16; 8; 8; 8; 8; 8; 8; 8; 8; 8; 8; 8; 8; 8; 8; 8; 8; 8; 8; 8; 16; 16; 16; 16; 16; 16; 32; 32; 16; 16; 16; 16; 4; 4; 4; 4; 8; 8; 4; 8; 8; 8; 8; 8; 16; 16; 8; 8; 8; 8; 8; 8; 8; 8; 16; 16; 8; 8; 8; 8; 8; 8; 8; 8; 16; 16; 16; 16; 8; 8; 8; 8; 8; 8; 8; 8; 16; 16; 16; 16; 16; 16; 16; 16; 16; 16; 16; 16; 16; 16; 16; 16; 16; 16; 16; 16; 32; 32; 32; 32; 3; 3; 3; 9; 6; 18; 6; 6; 6; 6; 6; 6; 18; 6; 6; 6; 6; 18; 18; 12; 12; 12; 12; 36; 36; 6; 6; 6; 6; 6; 6; 6; 12; 12; 12; 12; 12; 12; 12; 12; 12; 12; 12; 12; 12; 12; 12; 12; 24; 24; 24; 24; 12; 48; 24; 12; 24; 24; 24; 96; 96; 48; 24; 48; 24; 24; 96; 96; 48; 24; 24; 48; 24; 96; 48; 24; 96; 48; 48; 48; 48; 48; 192; 192; 192; 192; 96; 96]%nat.
(** groups.py:29-37 *)
Definition sg_two_settings : list nat := [48; 50; 59; 68; 70; 85; 86; 88; 125; 126; 129; 130; 133; 134; 137; 138; 141; 142; 201; 203; 222; 224; 227; 228]%nat.
(** groups.py:207 *)
Definition sg_xt_beg : list nat := [1; 3; 16; 75; 143; 168; 195]%nat.
(** groups.py:208-212 *)
Definition sg_pg_beg : list nat := [1; 2; 3; 6; 10; 16; 25; 47; 75; 81; 83; 89; 99; 111; 123; 143; 147; 149; 156; 162; 168; 174; 175; 177; 183; 187; 191; 195; 200; 207; 215; 221]%nat.
(** groups.py:222-230 *)
Definition pg_to_laue : list nat := [1; 1; 2; 2; 2; 3; 3; 3; 4; 4; 4; 5; 5; 5; 5; 6; 6; 7; 7; 7; 8; 8; 8; 9; 9; 9; 9; 10; 10; 11; 11; 11; 12; 13; 14; 15]%nat.

(** a 4x4 Seitz matrix: integer linear part, translation (24ths), bottom-right entry *)
Record sop := mkOp { r11 : Z; r12 : Z; r13 : Z; r21 : Z; r22 : Z; r23 : Z; r31 : Z; r32 : Z; r33 : Z; t1 : Z; t2 : Z; t3 : Z; hom : Z }.
Inductive sg_result (A : Type) := SgOk (a : A) | KeyError (c : ascii) | StringIndexError.
Arguments SgOk {A} _. Arguments KeyError {A} _. Arguments StringIndexError {A}.
Definition identity_op : sop := mkOp 1 0 0 0 1 0 0 0 1 0 0 0 1.
(** lines 291-295: -1 * identity with the corner reset *)
Definition inversion_op : sop := mkOp (-1) 0 0 0 (-1) 0 0 0 (-1) 0 0 0 1.
(** lines 250-262 trans_map *)
Definition trans_map (c : ascii) : option Z :=
  match c with
  | "A" => Some 4 | "B" => Some 6 | "C" => Some 8 | "D" => Some 12 | "E" => Some 16 | "F" => Some 18 | "G" => Some 20
  | "O" => Some 0 | "X" => Some (-9) | "Y" => Some (-6) | "Z" => Some (-3) | _ => None
  end%char.
(** lines 264-279 rot_matrices *)
Definition rot_matrix (c : ascii) : option (list Z) :=
  match c with
  | "a" => Some [1; 0; 0; 0; 1; 0; 0; 0; 1]
  | "b" => Some [-1; 0; 0; 0; -1; 0; 0; 0; 1]
  | "c" => Some [-1; 0; 0; 0; 1; 0; 0; 0; -1]
  | "d" => Some [0; 0; 1; 1; 0; 0; 0; 1; 0]
  | "e" => Some [0; 1; 0; 1; 0; 0; 0; 0; -1]
  | "f" => Some [0; -1; 0; -1; 0; 0; 0; 0; -1]
  | "g" => Some [0; -1; 0; 1; 0; 0; 0; 0; 1]
  | "h" => Some [-1; 0; 0; 0; -1; 0; 0; 0; -1]
  | "i" => Some [1; 0; 0; 0; 1; 0; 0; 0; -1]
  | "j" => Some [1; 0; 0; 0; -1; 0; 0; 0; 1]
  | "k" => Some [0; -1; 0; -1; 0; 0; 0; 0; 1]
  | "l" => Some [0; 1; 0; 1; 0; 0; 0; 0; 1]
  | "m" => Some [0; 1; 0; -1; 0; 0; 0; 0; -1]
  | "n" => Some [0; -1; 0; 1; -1; 0; 0; 0; 1]
  | _ => None
  end%char.
Definition digit (c : ascii) : nat := (nat_of_ascii c - 48)%nat.
(** lines 298-310: one generator from four characters at position [p] *)
Definition parse_gen (s : string) (p : nat) : sg_result sop :=
  match get p s, get (p + 1) s, get (p + 2) s, get (p + 3) s with
  | Some c, Some x, Some y, Some z =>
      match rot_matrix c with
      | Some [a; b; c; d; e; f; g; h; i] =>
          match trans_map x with None => KeyError x | Some tx =>
          match trans_map y with None => KeyError y | Some ty =>
          match trans_map z with None => KeyError z | Some tz => SgOk (mkOp a b c d e f g h i tx ty tz 1) end end end
      | _ => KeyError c
      end
  | _, _, _, _ => StringIndexError
  end.
Fixpoint parse_gens (s : string) (p : nat) (n : nat) : sg_result (list sop) :=
  match n with
  | O => SgOk []
  | S n' => match parse_gen s p with SgOk g => match parse_gens s (p + 4) n' with SgOk r => SgOk (g :: r) | KeyError c => KeyError c | StringIndexError => StringIndexError end
            | KeyError c => KeyError c | StringIndexError => StringIndexError end
  end.
(** lines 232-352 read_sg_gen_string. For setting 2 the three characters starting at the flag itself are looked up in trans_map (lines 305-308). *)
Definition read_sg_gen_string (sg : nat) (setting : nat) : sg_result (list sop) :=
  let s := nth (sg - 1) sg_gen_strings "" in
  match get 0 s, get 1 s with
  | Some c0, Some c1 =>
      let n := digit c1 in
      match parse_gens s 2 n with
      | SgOk gs =>
          let gens := (identity_op :: (if Ascii.eqb c0 "1" then [inversion_op] else []) ++ gs)%list in
          match get (2 + 4 * n) s with
          | None => StringIndexError
          | Some flag =>
              if (negb (Ascii.eqb flag "0") && Nat.eqb setting 2)%bool
              then match trans_map flag with None => KeyError flag | Some _ => SgOk gens (* never reached, see SgProps *) end
              else SgOk gens
          end
      | KeyError c => KeyError c | StringIndexError => StringIndexError
      end
  | _, _ => StringIndexError
  end.

(** lines 355-393 matmul_trans_mod: fmod(1000 + t, 1) *)
Definition tmod (t : Z) : Z := Z.rem (24000 + t) 24.
Definition op_mul (a b : sop) : sop :=
  mkOp (r11 a * r11 b + r12 a * r21 b + r13 a * r31 b) (r11 a * r12 b + r12 a * r22 b + r13 a * r32 b) (r11 a * r13 b + r12 a * r23 b + r13 a * r33 b)
       (r21 a * r11 b + r22 a * r21 b + r23 a * r31 b) (r21 a * r12 b + r22 a * r22 b + r23 a * r32 b) (r21 a * r13 b + r22 a * r23 b + r23 a * r33 b)
       (r31 a * r11 b + r32 a * r21 b + r33 a * r31 b) (r31 a * r12 b + r32 a * r22 b + r33 a * r32 b) (r31 a * r13 b + r32 a * r23 b + r33 a * r33 b)
       (tmod (r11 a * t1 b + r12 a * t2 b + r13 a * t3 b + t1 a * hom b)) (tmod (r21 a * t1 b + r22 a * t2 b + r23 a * t3 b + t2 a * hom b)) (tmod (r31 a * t1 b + r32 a * t2 b + r33 a * t3 b + t3 a * hom b))
       (hom a * hom b).
(** rows :3 agree (lines 437-444) *)
Definition same_top (a b : sop) : bool :=
  if t1 a =? t1 b then if t2 a =? t2 b then if t3 a =? t3 b then
  if r11 a =? r11 b then if r12 a =? r12 b then if r13 a =? r13 b then if r21 a =? r21 b then if r22 a =? r22 b then if r23 a =? r23 b then
  if r31 a =? r31 b then if r32 a =? r32 b then r33 a =? r33 b else false else false else false else false else false else false else false else false else false else false else false.
Definition same_all (a b : sop) : bool := if same_top a b then hom a =? hom b else false.
(** lines 396-402 unique_rows: a row goes when an earlier kept row equals it *)
Fixpoint unique_rows (kept : list sop) (l : list sop) : list sop :=
  match l with [] => rev kept | a :: r => if existsb (same_all a) kept then unique_rows kept r else unique_rows (a :: kept) r end.
(** lines 430-451, one pass; [None]: no new operator (break) *)
Definition close_step (gens : list sop) : option (list sop) :=
  let cands := flat_map (fun a => map (op_mul a) gens) gens in
  let news := filter (fun c => negb (existsb (same_top c) gens)) (unique_rows [] cands) in
  match news with [] => None | _ => Some (app gens news) end.
Fixpoint close (depth : nat) (gens : list sop) : list sop :=
  match depth with O => gens | S d => match close_step gens with None => gens | Some g => close d g end end.
(** line 476: gens[:, :, 3] = fmod(100 + gens[:, :, 3], 1), the corner included *)
Definition final_op (o : sop) : sop :=
  mkOp (r11 o) (r12 o) (r13 o) (r21 o) (r22 o) (r23 o) (r31 o) (r32 o) (r33 o) (Z.rem (2400 + t1 o) 24) (Z.rem (2400 + t2 o) 24) (Z.rem (2400 + t3 o) 24) (Z.rem (100 + hom o) 1).
(** lines 426-429 *)
Definition deep_groups : list nat := [69; 202; 203; 204; 206; 225; 226; 227; 228; 229; 230]%nat.
(** lines 405-478 sg_operators *)
Definition sg_operators (sg setting : nat) : sg_result (list sop) :=
  match read_sg_gen_string sg setting with
  | SgOk gens => SgOk (map final_op (close (if existsb (Nat.eqb sg) deep_groups then 3 else 2) gens))
  | KeyError c => KeyError c | StringIndexError => StringIndexError
  end.

(** unit_cell.py:194-209: point group, crystal system and Laue group numbers a Cell reports *)
Fixpoint first_reaching (i : nat) (sg : nat) (l : list nat) : option nat :=
  match l with [] => None | b :: r => if Nat.leb sg b then Some i else first_reaching (S i) sg r end.
Definition cell_pg_num (sg : nat) : nat := match first_reaching 1 sg sg_pg_beg with Some i => i | None => 32%nat end.
Definition cell_xtal_system (sg : nat) : nat := match first_reaching 1 sg sg_xt_beg with Some i => i | None => 7%nat end.
Definition cell_laue_group (sg : nat) : nat := nth (cell_pg_num sg) pg_to_laue 0%nat.

(** unit_cell.py:821-859 is_g_allowed; [None]: unknown letter *)
Definition is_g_allowed (sg : nat) (h k l : Z) : option bool :=
  match get (sg - 1) sg_letters with
  | Some "P"%char => Some true
  | Some "F"%char => let s := h mod 2 + k mod 2 + l mod 2 in Some ((s =? 0) || (s =? 3))%bool
  | Some "I"%char => Some ((h + k + l) mod 2 =? 0)
  | Some "A"%char => Some ((k + l) mod 2 =? 0)
  | Some "B"%char => Some ((h + l) mod 2 =? 0)
  | Some "C"%char => Some ((h + k) mod 2 =? 0)
  | Some "R"%char => Some ((- h + k + l) mod 3 =? 0)
  | _ => None
  end.
