(** Model of ebsdtorch/s2_and_so3/orientations.py: conversions between quaternions (qu), rotation matrices (om), axis-angle
    (ax), Rodrigues-Frank (ro), Bunge angles (bu), 6D (zh) and Clifford torus (cl).  The homochoric / cubochoric maps are in
    CuboModel.v.  One batch element at a time, over exact reals; [None] stands for a NaN result.  Shape checks (lines 71, 145,
    189) are not modelled. *)
From Verif Require Import Base QuatModel.

Definition clamp1 (x : R) : R := Rmax (-1) (Rmin 1 x).
(** axis-angle (x, y, z, angle) *)
Record axang := mkA { a_axis : vec; a_ang : R }.
(** Rodrigues-Frank (x, y, z, tan(angle/2)); axis [None] = NaN, tangent [None] = +inf *)
Record rodr := mkRo { r_axis : option vec; r_tan : option R }.
(** Bunge angles *)
Record bunge := mkB { b_1 : R; b_2 : R; b_3 : R }.

(** orientations.py:912-937 qu2om *)
Definition qu2om (q : quat) : mat :=
  let w := qw q in let x := qx q in let y := qy q in let z := qz q in
  let q_bar := w * w - (x * x + y * y + z * z) in
  mkM (q_bar + 2 * (x * x)) (2 * (x * y - w * z)) (2 * (x * z + w * y))
      (2 * (y * x + w * z)) (q_bar + 2 * (y * y)) (2 * (y * z - w * x))
      (2 * (z * x - w * y)) (2 * (z * y + w * x)) (q_bar + 2 * (z * z)).

(** orientations.py:52-131 om2qu.  0.5 * rsqrt(t) is 1 / (2 sqrt t). *)
Definition om2qu (m : mat) : quat :=
  let raw :=
    if Rlt_dec (m22 m) 0 then
      if Rlt_dec (m11 m) (m00 m) then
        let t := 1 + m00 m - m11 m - m22 m in let r := / (2 * sqrt t) in
        mkQ ((m12 m - m21 m) * r) (t * r) ((m01 m + m10 m) * r) ((m20 m + m02 m) * r)
      else
        let t := 1 - m00 m + m11 m - m22 m in let r := / (2 * sqrt t) in
        mkQ ((m20 m - m02 m) * r) ((m01 m + m10 m) * r) (t * r) ((m12 m + m21 m) * r)
    else
      if Rlt_dec (m00 m) (- m11 m) then
        let t := 1 - m00 m - m11 m + m22 m in let r := / (2 * sqrt t) in
        mkQ ((m01 m - m10 m) * r) ((m20 m + m02 m) * r) ((m12 m + m21 m) * r) (t * r)
      else
        let t := 1 + m00 m + m11 m + m22 m in let r := / (2 * sqrt t) in
        mkQ (t * r) ((m12 m - m21 m) * r) ((m20 m - m02 m) * r) ((m01 m - m10 m) * r) in
  (* lines 125-129 *)
  mkQ (Rabs (qw raw)) (copysign (qx raw) (m21 m - m12 m)) (copysign (qy raw) (m02 m - m20 m)) (copysign (qz raw) (m10 m - m01 m)).

(** orientations.py:134-176 om2ax.  [None]: the normalisation 0/0 (line 171). *)
Definition om2ax (m : mat) : option axang :=
  let theta := acos (clamp1 (1/2 * (m00 m + m11 m + m22 m - 1))) in
  let f := if Rlt_dec (1/1000) theta then 1/2 / sin theta else 1/2 in
  let v := vscale f (mkV (m21 m - m12 m) (m02 m - m20 m) (m10 m - m01 m)) in
  if Req_EM_T (vnorm v) 0 then None else Some (mkA (vscale (/ vnorm v) v) theta).

(** orientations.py:179-246 ax2om *)
Definition skew (o : vec) : mat := mkM 0 (- vz o) (vy o) (vz o) 0 (- vx o) (- vy o) (vx o) 0.
Definition ax2om (a : axang) : mat :=
  let th := a_ang a in
  let K := skew (vscale th (a_axis a)) in
  let K2 := mmul K K in
  if Rlt_dec (5/100) th then madd (madd mid (mscale (sin th / th) K)) (mscale ((1 - cos th) / (th * th)) K2)
  else madd (madd mid (mscale (1 - th * th / 6) K)) (mscale (1/2 - th * th / 24) K2).

(** orientations.py:688-701 ax2ro; at angle pi torch returns a huge finite number, modelled as +inf. *)
Definition ax2ro (a : axang) : rodr :=
  mkRo (Some (a_axis a)) (if Req_EM_T (cos (a_ang a / 2)) 0 then None else Some (tan (a_ang a / 2))).
(** orientations.py:704-728 ro2ax *)
Definition ro2ax (r : rodr) : option axang :=
  match r_tan r with
  | None => match r_axis r with None => None | Some n => Some (mkA n PI) end
  | Some t =>
      if Req_EM_T t 0 then Some (mkA (mkV 0 0 1) 0) else
      match r_axis r with
      | None => None
      | Some n => if Req_EM_T (vnorm n) 0 then None else Some (mkA (vscale (/ vnorm n) n) (2 * atan t))
      end
  end.
(** orientations.py:731-747 ax2qu *)
Definition ax2qu (a : axang) : quat :=
  let s := sin (a_ang a / 2) in
  mkQ (cos (a_ang a / 2)) (vx (a_axis a) * s) (vy (a_axis a) * s) (vz (a_axis a) * s).
(** orientations.py:750-781 qu2ax.  [None]: vector part 0 with angle not 0 (w = -1), sign(w)/0 * 0 = NaN. *)
Definition qu2ax (q : quat) : option axang :=
  let angle := 2 * acos (clamp1 (qw q)) in
  if Req_EM_T angle 0 then Some (mkA (mkV 0 0 1) 0) else
  if Req_EM_T (qw q) 0 then Some (mkA (qvec q) angle) else
  if Req_EM_T (vnorm (qvec q)) 0 then None else
  Some (mkA (vscale (Rsgn (qw q) / vnorm (qvec q)) (qvec q)) angle).
(** orientations.py:784-807 qu2ro; [eps] is 1e-8 (float32) or 1e-10.  rsqrt(0) * 0 = NaN for the axis of the identity. *)
Definition qu2ro (eps : R) (q : quat) : rodr :=
  mkRo (if Req_EM_T (vdot (qvec q) (qvec q)) 0 then None else Some (vscale (/ sqrt (vdot (qvec q) (qvec q))) (qvec q)))
       (if Rlt_dec (Rabs (qw q)) eps then None else Some (tan (acos (clamp1 (qw q))))).
(** orientations.py:1067-1077 ro2qu *)
Definition ro2qu (r : rodr) : option quat := match ro2ax r with None => None | Some a => Some (ax2qu a) end.

(** orientations.py:810-855 qu2bu *)
Definition wrap2pi (a : R) : R := if Rlt_dec a 0 then a + 2 * PI else a.
Definition qu2bu (q : quat) : bunge :=
  let w := qw q in let x := qx q in let y := qy q in let z := qz q in
  let q03 := w * w + z * z in let q12 := x * x + y * y in
  let chi := sqrt (q03 * q12) in
  if Req_EM_T chi 0 then
    (if Req_EM_T q12 0 then mkB (wrap2pi (atan2 (-2 * w * z) (w * w - z * z))) 0 0
     else mkB (wrap2pi (atan2 (2 * x * y) (x * x - y * y))) PI 0)
  else mkB (wrap2pi (atan2 ((x * z - w * y) / chi) ((- w * x - y * z) / chi)))
           (atan2 (2 * chi) (q03 - q12))
           (wrap2pi (atan2 ((w * y + x * z) / chi) ((y * z - w * x) / chi))).
(** orientations.py:858-883 bu2qu *)
Definition bu2qu (b : bunge) : quat :=
  let sigma := 1/2 * (b_1 b + b_3 b) in let delta := 1/2 * (b_1 b - b_3 b) in
  let c := cos (1/2 * b_2 b) in let s := sin (1/2 * b_2 b) in
  let q := mkQ (c * cos sigma) (- s * cos delta) (- s * sin delta) (- c * sin sigma) in
  if Rlt_dec (qw q) 0 then qneg q else q.
(** orientations.py:1249-1259 bu2om *)
Definition bu2om (b : bunge) : mat := qu2om (bu2qu b).
(** orientations.py:1319-1329 om2bu *)
Definition om2bu (m : mat) : bunge := qu2bu (om2qu m).

(** orientations.py:886-909 qu2cl (divisions by zero give NaN or +-pi/2; only used with non-zero components) *)
Definition qu2cl (q : quat) : list R :=
  [atan (qx q / qw q); atan (qz q / qy q); atan (qy q / qw q); atan (qx q / qz q); atan (qz q / qw q); atan (qy q / qx q)].

(** orientations.py:941-964 zh2om; [None]: a zero norm *)
Definition zh2om (a1 a2 : vec) : option mat :=
  if Req_EM_T (vnorm a1) 0 then None else
  let b1 := vscale (/ vnorm a1) a1 in
  let b2 := vsub a2 (vscale (vdot b1 a2) b1) in
  if Req_EM_T (vnorm b2) 0 then None else
  let b2 := vscale (/ vnorm b2) b2 in
  let b3 := vcross b1 b2 in
  if Req_EM_T (vnorm b3) 0 then None else
  let b3 := vscale (/ vnorm b3) b3 in
  Some (mkM (vx b1) (vy b1) (vz b1) (vx b2) (vy b2) (vz b2) (vx b3) (vy b3) (vz b3)).
(** orientations.py:967-984 om2zh: the first two rows *)
Definition om2zh (m : mat) : vec * vec := (mkV (m00 m) (m01 m) (m02 m), mkV (m10 m) (m11 m) (m12 m)).
(** orientations.py:987-1006 zh2qu and 1009-1020 qu2zh *)
Definition zh2qu (a1 a2 : vec) : option quat := match zh2om a1 a2 with None => None | Some m => Some (om2qu m) end.
Definition qu2zh (q : quat) : vec * vec := om2zh (qu2om q).

(** Derived conversions: orientations.py:1220-1231 om2ro, 1263-1273 bu2ax, 1277-1287 bu2ro, 1333-1343 ax2bu, 1347-1357 ro2bu,
    1081-1091 ro2om *)
Definition om2ro (eps : R) (m : mat) : rodr := qu2ro eps (om2qu m).
Definition bu2ax (b : bunge) : option axang := qu2ax (bu2qu b).
Definition bu2ro (eps : R) (b : bunge) : rodr := qu2ro eps (bu2qu b).
Definition ax2bu (a : axang) : bunge := qu2bu (ax2qu a).
Definition ro2bu (r : rodr) : option bunge := match ro2qu r with None => None | Some q => Some (qu2bu q) end.
Definition ro2om (r : rodr) : option mat := match ro2ax r with None => None | Some a => Some (ax2om a) end.
