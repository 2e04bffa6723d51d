(** Specification vocabulary for k-vector sampling. *)
From Coq Require Import Reals ZArith List Bool Lia Lra.
From Verif Require Import Base QuatModel SphereModel SgModel SgSpec CellModel KvModel.
Import ListNotations.
Open Scope R_scope.
(** EMsoft's sampling type (PGSamplingType and the special cases for trigonal groups and point groups -42m, -6m2) by the true crystal class *)
Definition emsoft_type (sg : nat) : Z :=
  let pg := crystal_class sg in
  let s := nth (pg - 1) [1; 2; 3; 4; 5; 5; 5; 6; 5; 5; 6; 6; 7; -1; 9; -1; -1; -1; -1; -1; 15; 12; 17; 16; 18; -1; 19; 3; 6; 6; 8; 9]%Z 0%Z in
  if Z.eqb s (-1) then
    if Nat.eqb pg 14 then (if (Nat.leb 115 sg && Nat.leb sg 120)%bool then 6%Z else 8%Z)
    else if Nat.eqb pg 26 then (if Nat.leb sg 188 then 16%Z else 17%Z)
    else if Nat.leb sg 146 then 10%Z
    else if Nat.leb sg 155 then 12%Z
    else if existsb (Nat.eqb sg) [156; 158; 160; 161]%nat then 14%Z
    else if existsb (Nat.eqb sg) [157; 159]%nat then 15%Z
    else if existsb (Nat.eqb sg) [162; 163]%nat then 17%Z
    else 16%Z
  else s.
(** the unit direction of a grid index: equal-area image on the upper hemisphere, mirrored for flag -1 *)
Definition direction (w : nat) (i j f : Z) : vec :=
  let v := hemi_square (IZR i / INR w, IZR j / INR w) in mkV (vx v) (vy v) (IZR f * vz v).
(** linear part of an operator as a real matrix *)
Definition op_mat (o : sop) : mat := mkM (IZR (r11 o)) (IZR (r12 o)) (IZR (r13 o)) (IZR (r21 o)) (IZR (r22 o)) (IZR (r23 o)) (IZR (r31 o)) (IZR (r32 o)) (IZR (r33 o)).
(** every grid direction of both hemispheres is carried to a returned k-vector by one of the matrices *)
Definition covers (ms : list mat) (w : nat) (rows : list krow) : Prop :=
  forall i j f, (Z.abs i <= Z.of_nat w)%Z -> (Z.abs j <= Z.of_nat w)%Z -> f = 1%Z \/ f = (-1)%Z ->
  exists m r, In m ms /\ In r rows /\ mapp m (direction w i j f) = fst r.
Definition mneg (m : mat) : mat := mkM (- m00 m) (- m01 m) (- m02 m) (- m10 m) (- m11 m) (- m12 m) (- m20 m) (- m21 m) (- m22 m).
(** groups sampled on the square: all but trigonal and hexagonal *)
Definition square_group (sg : nat) : Prop := (1 <= sg <= 142)%nat \/ (195 <= sg <= 230)%nat.
(** metric tensor of a cell *)
Definition metric_of (L : lattice) : metric := (m00 (dmt L), m11 (dmt L), m22 (dmt L), m01 (dmt L), m02 (dmt L), m12 (dmt L)).
(** space groups whose default sampling type is EMsoft's *)
Definition agree_groups : list nat :=
  ([1; 2; 3; 6]%nat ++ seq 10 16 ++ [47]%nat ++ seq 75 7 ++ seq 83 7 ++ [99; 111; 123]%nat ++ seq 143 5 ++ [156]%nat ++ seq 158 5 ++ [168; 174; 175; 177; 183; 187; 191; 195]%nat ++ seq 200 8 ++ [215]%nat ++ seq 221 10)%list.
(** space groups whose default sampling type loses no direction of the crystal class *)
Definition class_groups : list nat := ([1; 2; 3; 6]%nat ++ seq 10 16 ++ seq 47 35 ++ seq 83 17 ++ [111; 123; 192; 193; 194; 195]%nat ++ seq 200 16 ++ seq 221 10)%list.
Definition matrices (ops : list sop) : list mat := map op_mat ops.
(** with Friedel's law: the operators and their inverses through the origin *)
Definition friedel (ops : list sop) : list mat := map op_mat ops ++ map (fun o => mneg (op_mat o)) ops.
