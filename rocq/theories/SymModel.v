(** Model of ebsdtorch/utils/symmetry_classes.py.  [None] is the ValueError. *)
From Coq Require Import ZArith List String Bool.
Import ListNotations.
Open Scope string_scope.
Open Scope Z_scope.

(** symmetry_classes.py:4-31 space_group_to_laue *)
Definition space_group_to_laue (sg : Z) : option Z :=
  if (sg <? 1) || (230 <? sg) then None
  else if 206 <? sg then Some 11
  else if 193 <? sg then Some 10
  else if 176 <? sg then Some 9
  else if 167 <? sg then Some 8
  else if 155 <? sg then Some 7
  else if 142 <? sg then Some 6
  else if 88 <? sg then Some 5
  else if 74 <? sg then Some 4
  else if 15 <? sg then Some 3
  else if 2 <? sg then Some 2
  else Some 1.

(** Python [x in [...]] on strings *)
Definition str_in (s : string) (l : list string) : bool := existsb (String.eqb s) l.

(** symmetry_classes.py:34-64 point_group_to_laue *)
Definition point_group_to_laue (pg : string) : option Z :=
  if str_in pg ["m3-m"; "4-3m"; "432"] then Some 11
  else if str_in pg ["m3-"; "23"] then Some 10
  else if str_in pg ["6/mmm"; "6-m2"; "6mm"; "622"] then Some 9
  else if str_in pg ["6/m"; "6-"; "6"] then Some 8
  else if str_in pg ["3-m"; "3m"; "32"] then Some 7
  else if str_in pg ["3-"; "3"] then Some 6
  else if str_in pg ["4/mmm"; "4-2m"; "4mm"; "422"] then Some 5
  else if str_in pg ["4/m"; "4-"; "4"] then Some 4
  else if str_in pg ["mmm"; "mm2"; "222"] then Some 3
  else if str_in pg ["2/m"; "m"; "2"] then Some 2
  else if str_in pg ["1-"; "1"] then Some 1
  else None.
