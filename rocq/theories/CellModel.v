(** Model of the Cell class (ebsdtorch/crystallography/unit_cell.py): metric, coordinate transformations, orbits, averages, reflections.
    Exact reals; NaN as None; batched code per vector. *)
From Verif Require MonteModel.
From Verif Require Import Base SgModel.
Open Scope R_scope.

(** lattice parameters in nm and radians *)
Record lattice := mkL { la : R; lb : R; lc : R; al : R; be : R; ga : R }.
Inductive len_unit := Nm | Angstrom | Pm | OtherLen.
Inductive ang_unit := Deg | Rad | OtherAng.
(** unit_cell.py:211-228 *)
Definition to_nm (u : len_unit) (x : R) : option R := match u with Nm => Some x | Angstrom => Some (x * (1/10)) | Pm => Some (x * (1/1000)) | OtherLen => None end.
(** lines 230-239 *)
Definition to_rad (u : ang_unit) (x : R) : option R := match u with Rad => Some x | Deg => Some (x * (PI / 180)) | OtherAng => None end.
(** lines 256-276 *)
Definition dmt (L : lattice) : mat :=
  mkM (la L * la L) (la L * lb L * cos (ga L)) (la L * lc L * cos (be L))
      (la L * lb L * cos (ga L)) (lb L * lb L) (lb L * lc L * cos (al L))
      (la L * lc L * cos (be L)) (lb L * lc L * cos (al L)) (lc L * lc L).
(** line 279; [None]: NaN (negative determinant) *)
Definition vol (L : lattice) : option R := if Rle_dec 0 (mdet (dmt L)) then Some (sqrt (mdet (dmt L))) else None.
(** lines 281-285: does the constructor raise? a comparison with NaN is false *)
Definition volume_rejected (L : lattice) : bool := match vol L with Some v => if Rlt_dec v (1/1000000) then true else false | None => false end.
(** lines 211-285 *)
Definition make_cell (a b c : R) (lu : len_unit) (x y z : R) (au : ang_unit) : option lattice :=
  match to_nm lu a, to_nm lu b, to_nm lu c, to_rad au x, to_rad au y, to_rad au z with
  | Some a, Some b, Some c, Some x, Some y, Some z => let L := mkL a b c x y z in if volume_rejected L then None else Some L
  | _, _, _, _, _, _ => None
  end.
(** torch.linalg.inv of a 3x3 matrix *)
Definition minv (m : mat) : mat :=
  let d := / mdet m in
  mkM (d * (m11 m * m22 m - m12 m * m21 m)) (d * (m02 m * m21 m - m01 m * m22 m)) (d * (m01 m * m12 m - m02 m * m11 m))
      (d * (m12 m * m20 m - m10 m * m22 m)) (d * (m00 m * m22 m - m02 m * m20 m)) (d * (m02 m * m10 m - m00 m * m12 m))
      (d * (m10 m * m21 m - m11 m * m20 m)) (d * (m01 m * m20 m - m00 m * m21 m)) (d * (m00 m * m11 m - m01 m * m10 m)).
(** line 288 *)
Definition rmt (L : lattice) : mat := minv (dmt L).
(** lines 290-307; [v] is the volume *)
Definition dsm (L : lattice) (v : R) : mat :=
  mkM (la L) (lb L * cos (ga L)) (lc L * cos (be L))
      0 (lb L * sin (ga L)) (- lc L * (cos (be L) * cos (ga L) - cos (al L)) / sin (ga L))
      0 0 (v / (la L * lb L * sin (ga L))).
(** line 310 *)
Definition rsm (L : lattice) (v : R) : mat := minv (dsm L v).

Inductive space := Direct | Recip | Cart.
Definition row_times (t : vec) (m : mat) : vec := mapp (mtr m) t.
(** lines 520-565 transform_space; the string arguments are 'd', 'r', 'c' *)
Definition transform_space (L : lattice) (v : R) (t : vec) (i o : space) : vec :=
  match i, o with
  | Direct, Direct | Recip, Recip | Cart, Cart => t
  | Direct, Cart => mapp (dsm L v) t
  | Direct, Recip => row_times t (dmt L)
  | Recip, Cart => mapp (rsm L v) t
  | Recip, Direct => row_times t (rmt L)
  | Cart, Direct => row_times t (rsm L v)
  | Cart, Recip => row_times t (dsm L v)
  end.
(** lines 567-610 transform_coordinates; [on]: old-to-new *)
Definition transform_coordinates (t : vec) (talpha : mat) (s : space) (on : bool) : vec :=
  match s with
  | Direct => if on then row_times t (mtr talpha) else row_times t talpha
  | _ => if on then mapp talpha t else mapp (mtr talpha) t
  end.
(** lines 612-636 calc_dot (calc_auto_dot 638-660 is p = q) *)
Definition calc_dot (L : lattice) (p q : vec) (s : space) : R :=
  match s with Direct => vdot p (mapp (dmt L) q) | Recip => vdot p (mapp (rmt L) q) | Cart => vdot p q end.
(** lines 680-698 *)
Definition calc_length (L : lattice) (p : vec) (s : space) : R := sqrt (calc_dot L p p s).
(** lines 662-678 *)
Definition norm_vec (L : lattice) (p : vec) (s : space) : vec := if Req_EM_T (calc_length L p s) 0 then mkV 0 0 0 else vscale (/ calc_length L p s) p.
(** lines 700-729; [None]: ValueError *)
Definition calc_angle (L : lattice) (p q : vec) (s : space) : option R :=
  if Req_EM_T (calc_length L p s) 0 then None else if Req_EM_T (calc_length L q s) 0 then None else
  let t := calc_dot L p q s / (calc_length L p s * calc_length L q s) in
  Some (if Rle_dec 1 t then 0 else if Rle_dec t (-1) then PI else acos t).
(** lines 731-770; [None]: ValueError *)
Definition calc_cross (L : lattice) (v : R) (p q : vec) (i o : space) (by_vol : bool) : option vec :=
  let vl := if by_vol then v else 1 in
  match i, o with
  | Direct, Direct => Some (row_times (vscale vl (vcross p q)) (rmt L))
  | Direct, Cart => Some (mapp (rsm L v) (vscale vl (vcross p q)))
  | Recip, Recip => Some (row_times (vscale (/ vl) (vcross p q)) (dmt L))
  | Recip, Cart => Some (mapp (dsm L v) (vscale (/ vl) (vcross p q)))
  | Cart, _ => Some (vcross p q)
  | _, _ => None
  end.
(** lines 772-787 z2_percent: (count, occupancy, atomic number) per site *)
Definition rsum (l : list R) : R := fold_right Rplus 0 l.
Definition z2_list (l : list (R * R * R)) : list R := map (fun s => let '(n, o, z) := s in n * o * (z * z)) l.
Definition z2_percent (l : list (R * R * R)) : list R := map (fun x => 100 * x / rsum (z2_list l)) (z2_list l).
(** lines 362-379: (value per atom - atomic number or weight -, occupancy, multiplicity) per site *)
Definition cell_average (l : list (R * R * R)) : R := rsum (map (fun s => let '(w, o, m) := s in w * o * m) l) / INR (List.length l) / rsum (map (fun s => snd s) l).
Definition cell_density (l : list (R * R * R)) (v : R) : R := rsum (map (fun s => let '(w, o, m) := s in w * o * m) l) / (v * (602214076/1000000)).

(** ---- orbits (lines 329-360) ---- *)
Definition snap (x : R) : R := if Rlt_dec (Rabs x) (1/1000000) then 0 else x.
Definition fmod1 (x : R) : R := x - IZR (MonteModel.truncZ x).
(** lines 343-350 *)
Definition wrap (x : R) : R := snap (fmod1 (snap x + 100)).
(** lines 335-341: the corner entry of the operator does not enter the first three components *)
Definition image (o : sop) (p : vec) : vec :=
  mkV (wrap (IZR (r11 o) * vx p + IZR (r12 o) * vy p + IZR (r13 o) * vz p + IZR (t1 o) / 24))
      (wrap (IZR (r21 o) * vx p + IZR (r22 o) * vy p + IZR (r23 o) * vz p + IZR (t2 o) / 24))
      (wrap (IZR (r31 o) * vx p + IZR (r32 o) * vy p + IZR (r33 o) * vz p + IZR (t3 o) / 24)).
Definition dist1 (p q : vec) : R := Rabs (vx p - vx q) + Rabs (vy p - vy q) + Rabs (vz p - vz q).
Definition near (eps : R) (p q : vec) : bool := if Rlt_dec (dist1 q p) eps then true else false.
(** lines 130-140 unique_rows: a row goes when an earlier kept row is within eps of it *)
Fixpoint unique_pos (eps : R) (kept l : list vec) : list vec :=
  match l with [] => rev kept | a :: r => if existsb (near eps a) kept then unique_pos eps kept r else unique_pos eps (a :: kept) r end.
(** lines 352-354 *)
Definition orbit (ops : list sop) (p : vec) : list vec := unique_pos (1/10000) [] (map (fun o => image o p) ops).

(** ---- convert_from_R_to_H (lines 789-819) ---- *)
Definition r_to_h_lattice (L : lattice) : lattice :=
  let ca := cos (al L * PI / 180) in
  let a := la L * sqrt (2 - 2 * ca) in mkL a a (la L * sqrt (3 + 6 * ca)) 90 90 120.
Definition r_to_h_mat : mat := mkM (2/3) (1/3) (1/3) (-(1/3)) (1/3) (1/3) (-(1/3)) (-(2/3)) (1/3).
(** lines 815-819: only the first [ntype] sites (number of distinct elements) are transformed *)
Fixpoint r_to_h_sites (ntype : nat) (l : list vec) : list vec :=
  match ntype, l with S n, p :: r => mapp r_to_h_mat p :: r_to_h_sites n r | _, _ => l end.

(** ---- reflections (lines 861-1004) ---- *)
Definition zvec (h k l : Z) : vec := mkV (IZR h) (IZR k) (IZR l).
(** d-spacing 1/length, infinite for a zero vector: the tests d < dmin and d > dmin *)
Definition d_below (L : lattice) (dmin : R) (g : vec) : bool := if Req_EM_T (calc_length L g Recip) 0 then false else if Rlt_dec (1 / calc_length L g Recip) dmin then true else false.
Definition d_above (L : lattice) (dmin : R) (g : vec) : bool := if Req_EM_T (calc_length L g Recip) 0 then true else if Rlt_dec dmin (1 / calc_length L g Recip) then true else false.
(** lines 861-910, repeated at 938-973 get_hkl_limits: position of the first axial index 1..99 with d < dmin, 99 if none *)
Fixpoint first_pos (f : nat -> bool) (i : nat) (l : list nat) : option nat := match l with [] => None | x :: r => if f x then Some i else first_pos f (S i) r end.
Definition axis_limit (L : lattice) (dmin : R) (e : Z -> vec) : nat :=
  match first_pos (fun n => d_below L dmin (e (Z.of_nat n))) 0 (seq 1 99) with Some i => i | None => 99%nat end.
Definition hkl_limits (L : lattice) (dmin : R) : nat * nat * nat :=
  (axis_limit L dmin (fun n => zvec n 0 0), axis_limit L dmin (fun n => zvec 0 n 0), axis_limit L dmin (fun n => zvec 0 0 n)).
(** torch.arange(-m + 1, m) for m >= 1 *)
Definition zrange (m : nat) : list Z := map (fun i => (Z.of_nat i - (Z.of_nat m - 1))%Z) (seq 0 (2 * m - 1)).
Definition grid (a b c : nat) : list (Z * Z * Z) := flat_map (fun h => flat_map (fun k => map (fun l => (h, k, l)) (zrange c)) (zrange b)) (zrange a).
Definition allowed (sg : nat) (g : Z * Z * Z) : bool := let '(h, k, l) := g in match is_g_allowed sg h k l with Some b => b | None => false end.
Definition nonzero3 (g : Z * Z * Z) : bool := let '(h, k, l) := g in negb (Z.eqb h 0 && Z.eqb k 0 && Z.eqb l 0).
(** lines 912-1018 get_reflections; [None]: torch.arange raises (an axial limit is 0) *)
Definition get_reflections (L : lattice) (sg : nat) (dmin : R) (difference filter_centering : bool) : option (list (Z * Z * Z)) :=
  let '(a, b, c) := hkl_limits L dmin in
  if (Nat.eqb a 0 || Nat.eqb b 0 || Nat.eqb c 0)%bool then None else
  let g := if difference then filter nonzero3 (grid (2 * a) (2 * b) (2 * c)) else tl (grid a b c) in
  let g := if filter_centering then filter (allowed sg) g else g in
  Some (if difference then g else filter (fun x => let '(h, k, l) := x in d_above L dmin (zvec h k l)) g).
