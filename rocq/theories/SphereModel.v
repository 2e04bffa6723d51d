(** Model of ebsdtorch/s2_and_so3/sphere.py and ebsdtorch/utils/rosca_lambert.py, one point at a time over exact reals.
    [None] stands for a NaN result (0/0). *)
From Verif Require Import Base QuatModel.

(** sphere.py:17-36 theta_phi_to_xyz *)
Definition theta_phi_to_xyz (theta phi : R) : vec := mkV (cos theta * sin phi) (sin theta * sin phi) (cos phi).
(** sphere.py:40-58 xyz_to_theta_phi *)
Definition xyz_to_theta_phi (v : vec) : R * R := (atan2 (sqrt (vx v * vx v + vy v * vy v)) (vz v), atan2 (vy v) (vx v)).

Definition sgn1 (x : R) : R := if Rlt_dec x 0 then -1 else 1.
(** sphere.py:62-92 rosca_lambert *)
Definition rosca_lambert (p : vec) : R * R :=
  let factor := sqrt (Rmax (2 * (1 - Rabs (vz p))) 0) in
  let cond := Rle_dec (Rabs (vy p)) (Rabs (vx p)) in
  let big := if cond then vx p else vy p in
  let sml := if cond then vy p else vx p in
  let simpler := sgn1 big * factor * (2 / sqrt 8) in
  let arct := sgn1 big * factor * atan2 (sml * sgn1 big) (Rabs big) * (2 * sqrt 2 / PI) in
  if cond then (simpler, arct) else (arct, simpler).
(** sphere.py:96-142 inv_rosca_lambert; also utils/rosca_lambert.py:55-98 square_to_hemisphere_v2 (same text) *)
Definition inv_rosca_lambert (s : R * R) : option vec :=
  let x_abs := Rabs (fst s) * sqrt (PI / 2) in
  let y_abs := Rabs (snd s) * sqrt (PI / 2) in
  let cond := Rle_dec y_abs x_abs in
  let x := if cond then x_abs else y_abs in
  let y := if cond then y_abs else x_abs in
  if Req_EM_T x 0 then None else
  let x_hs := 2 * x / PI * sqrt (PI - x^2) * cos (PI * y / (4 * x)) in
  let y_hs := 2 * x / PI * sqrt (PI - x^2) * sin (PI * y / (4 * x)) in
  Some (mkV (copysign (if cond then x_hs else y_hs) (fst s)) (copysign (if cond then y_hs else x_hs) (snd s)) (1 - 2 * x^2 / PI)).
Definition square_to_hemisphere_v2 := inv_rosca_lambert.
(** utils/rosca_lambert.py:7-51 square_to_hemisphere *)
Definition square_to_hemisphere (s : R * R) : option vec :=
  let a := fst s * sqrt (PI / 2) in
  let b := snd s * sqrt (PI / 2) in
  if Rle_dec (Rabs b) (Rabs a) then
    if Req_EM_T a 0 then None else
    Some (mkV (2 * a / PI * sqrt (PI - a^2) * cos (PI * b / (4 * a))) (2 * a / PI * sqrt (PI - a^2) * sin (PI * b / (4 * a))) (1 - 2 * a^2 / PI))
  else
    Some (mkV (2 * b / PI * sqrt (PI - b^2) * sin (PI * a / (4 * b))) (2 * b / PI * sqrt (PI - b^2) * cos (PI * a / (4 * b))) (1 - 2 * b^2 / PI)).
(** sphere.py:146-188 rosca_lambert_side_by_side: the same text as rosca_lambert up to line 183 *)
Definition rosca_side_by_side (p : vec) : R * R :=
  let out := rosca_lambert p in (fst out / 2 - 1/2 + (if Rlt_dec (vz p) 0 then 1 else 0), snd out).

(** utils/rosca_lambert.py:165-218 hexagon_to_hemisphere.  3.0**0.25 is sqrt (sqrt 3). *)
Definition hexagon_to_hemisphere (s : R * R) : option vec :=
  let y_abs := Rabs (fst s) in let x_abs := Rabs (snd s) in
  let rotate := Rlt_dec (x_abs / sqrt 3) y_abs in
  let x := if rotate then x_abs * (1/2) + y_abs * (1/2) * sqrt 3 else x_abs in
  let y := if rotate then - x_abs * (1/2) * sqrt 3 + y_abs * (1/2) else y_abs in
  if Req_EM_T x 0 then None else
  let factor := sqrt (sqrt 3) * sqrt (2 / PI) * x in
  let arg := y * PI / (2 * sqrt 3 * x) in
  let x_hs := factor * cos arg in
  let y_hs := factor * sin arg in
  let x_r := if rotate then x_hs * (1/2) - y_hs * (1/2) * sqrt 3 else x_hs in
  let y_r := if rotate then x_hs * (1/2) * sqrt 3 + y_hs * (1/2) else y_hs in
  let k := sqrt (3 * sqrt 3 / (2 * PI)) in
  let x_out := copysign x_r (snd s) / k in
  let y_out := copysign y_r (fst s) / k in
  Some (mkV y_out x_out (1 - x_out^2 - y_out^2)).
