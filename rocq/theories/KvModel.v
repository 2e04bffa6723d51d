(** Model of kvectors_grid (ebsdtorch/crystallography/kvectors.py): choice of the sampling type, masks, hemisphere copies. Exact reals. *)
From Coq Require Import Reals ZArith List Bool Lia Lra.
From Verif Require Import Base QuatModel SphereModel SgModel.
Import ListNotations.
Open Scope R_scope.

(** kvectors.py:149-153 point_group_to_sample_case *)
Definition sample_case : list Z := [1; 2; 3; 4; 5; 5; 5; 6; 5; 5; 6; 6; 7; -1; 9; -1; -1; -1; -1; -1; 15; 12; 17; 16; 18; -1; 19; 3; 6; 6; 8; 9; -1; -1; -1; -1]%Z.
(** lines 155-182; [pg]: the cell's pg_num. Python precedence: [sg == 147 <= 155] is sg == 147, [sg == 157 | sg == 159] is sg == (157 | sg) == 159 *)
Definition default_type (pg sg : nat) : Z :=
  let s := nth (pg - 1) sample_case (-1)%Z in
  if Z.eqb s (-1) then
    if (Nat.leb 143 sg && Nat.leb sg 167)%bool then
      if Nat.leb sg 146 then 10%Z
      else if Nat.eqb sg 147 then 12%Z
      else if (Nat.eqb sg 156 || Nat.eqb sg 158 || Nat.eqb sg 160 || Nat.eqb sg 161)%bool then 14%Z
      else if (Nat.eqb sg (Nat.lor 157 sg) && Nat.eqb (Nat.lor 157 sg) 159)%bool then 15%Z
      else if (Nat.eqb sg 162 || Nat.eqb sg 163)%bool then 17%Z
      else 16%Z
    else if Nat.eqb pg 14 then if (Nat.leb 115 sg && Nat.leb sg 120)%bool then 6%Z else 8%Z
    else if Nat.eqb pg 26 then if (Nat.eqb sg 187 || Nat.eqb sg 188)%bool then 16%Z else 17%Z
    else s
  else s.
(** the type used when the caller gives none: Cell reports its point group number (unit_cell.py:194-199) *)
Definition chosen_type (sg : nat) : Z := default_type (cell_pg_num sg) sg.

(** kvectors.py:8-53: the text of inv_rosca_lambert, with the pole repaired (lines 49-51) *)
Definition hemi_square (s : R * R) : vec := match inv_rosca_lambert s with Some v => v | None => mkV 0 0 1 end.
(** kvectors.py:56-113: the text of utils' hexagon_to_hemisphere, with the pole repaired (lines 109-111) *)
Definition hemi_hex (s : R * R) : vec := match hexagon_to_hemisphere s with Some v => v | None => mkV 0 0 1 end.

(** lines 184-194: arange(-w, w + 1) twice, row-major *)
Definition axis (w : nat) : list Z := map (fun n => (Z.of_nat n - Z.of_nat w)%Z) (seq 0 (2 * w + 1)).
Definition grid_ij (w : nat) : list (Z * Z) := flat_map (fun i => map (fun j => (i, j)) (axis w)) (axis w).
Definition is_square_type (st : Z) : bool := (Z.leb 1 st && Z.leb st 9)%bool.
(** southern hemisphere appended (types 1, 3, 4, 5, 7, 10, 14, 15, 18; lines 199-203, 211-216, 221-226, 231-236, 245-250, 269-274, 317-322, 331-336, 388-394) *)
Definition both_hemispheres (st : Z) : bool := existsb (Z.eqb st) [1; 3; 4; 5; 7; 10; 14; 15; 18]%Z.
(** masks of the square types, lines 197-260; the mask of type 3 is on xy[:, 0], a positive multiple of the index *)
Definition kept_square (st i j : Z) : bool :=
  if Z.eqb st 3 then Z.leb 0 i
  else if Z.eqb st 4 then Z.leb 0 j
  else if (Z.eqb st 5 || Z.eqb st 6)%bool then (Z.leb 0 i && Z.leb 0 j)%bool
  else if (Z.eqb st 7 || Z.eqb st 9)%bool then (Z.leb 0 i && Z.leb 0 j && Z.leb j i)%bool
  else if Z.eqb st 8 then (Z.leb 0 i && Z.leb (Z.abs j) i)%bool
  else true.
Definition Rleb (x y : R) : bool := if Rle_dec x y then true else false.
Definition hex_xx (i j : Z) : R := IZR i - / 2 * IZR j.
Definition hex_ang (i j : Z) : R := atan2 (IZR j * sqrt 3 / 2) (hex_xx i j).
(** masks of the hexagonal types, lines 261-411 *)
Definition kept_hex (st i j : Z) : bool :=
  if Z.eqb st 10 then (Z.leb 0 i && Z.leb 0 j)%bool
  else if Z.eqb st 12 then (Z.leb 0 i && Z.leb 0 j && Z.leb j i)%bool
  else if Z.eqb st 14 then (Z.leb 0 j && Z.leb ((j + 1) / 2) i && Z.leb i (2 * j))%bool
  else if Z.eqb st 15 then (Z.leb 0 j && Z.leb j i)%bool
  else if Z.eqb st 16 then (Z.leb 0 i && Z.leb 0 j && Rleb (PI / (59999/10000)) (hex_ang i j) && Rleb 0 (hex_xx i j))%bool
  else if Z.eqb st 17 then (Z.leb 0 i && Z.leb 0 j && Rleb (hex_ang i j) (PI / 3) && Rleb 0 (hex_xx i j))%bool
  else (Z.leb 0 i && Z.leb 0 j && Rleb (hex_ang i j) (PI / (60001/10000)) && Rleb 0 (hex_xx i j))%bool.
(** a k-vector with its grid index and hemisphere flag *)
Definition krow := (vec * (Z * Z * Z))%type.
Definition flip_z (r : krow) : krow := let '(v, (i, j, f)) := r in (mkV (vx v) (vy v) (- vz v), (i, j, (- f)%Z)).
Inductive kv_result := KvOk (l : list krow) | KvValueError | KvNotImplemented.
(** lines 115-428 kvectors_grid for grid half width [w] >= 1, sampling type [st], space group [sg], second setting or not *)
Definition kvectors_grid (w : nat) (st : Z) (sg : nat) (second : bool) : kv_result :=
  let xy := fun p : Z * Z => (IZR (fst p) / INR w, IZR (snd p) / INR w) in
  let trig2 := (Nat.leb 143 sg && Nat.leb sg 167 && second)%bool in
  let finish := fun rows : list krow => KvOk (if both_hemispheres st then rows ++ map flip_z rows else rows) in
  if is_square_type st then finish (map (fun p => (hemi_square (xy p), (fst p, snd p, 1%Z))) (filter (fun p => kept_square st (fst p) (snd p)) (grid_ij w)))
  else if (Z.eqb st 11 || Z.eqb st 13)%bool then KvNotImplemented
  else if ((Z.eqb st 12 || Z.eqb st 14 || Z.eqb st 16) && trig2)%bool then KvNotImplemented
  else if (Z.leb 10 st && Z.leb st 19)%bool then
    finish (filter (fun r => Rleb 0 (vz (fst r))) (map (fun p => (hemi_hex (xy p), (fst p, snd p, 1%Z))) (filter (fun p => kept_hex st (fst p) (snd p)) (grid_ij w))))
  else KvValueError.
