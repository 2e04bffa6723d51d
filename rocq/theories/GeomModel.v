(** Model of ebsdtorch/ebsd/geometry.py: Bruker pattern centres as rigid motions and the EBSDGeometry module.
    Floats are reals; batched functions are modelled on one element; lists of coordinates keep the row-major order. *)
From Verif Require Import Base QuatModel OriModel Se3Model.

Definition deg2rad (d : R) : R := d * PI / 180.
Definition rad2deg (r : R) : R := r * 180 / PI.
(** geometry.py:31-92 bruker_geometry_to_SE3: the matrix of lines 60-73 (row major) and the vector of lines 75-90 *)
Definition bruker_geometry_to_SE3 (pc : vec) (primary secondary : R) (shape : nat * nat) : mat * vec :=
  let rows := INR (fst shape) in let cols := INR (snd shape) in
  let pcx := vx pc in let pcy := vy pc in let pcz := vz pc in
  let a := deg2rad primary in let s := deg2rad secondary in
  (mkM (- sin a) (- sin s * cos a) (cos s * cos a)
       0 (cos s) (sin s)
       (- cos a) (sin s * sin a) (- sin a * cos s),
   mkV (pcx * cols * sin s * cos a + pcy * rows * sin a + pcz * rows * cos s * cos a - sin s * cos a / 2 - sin a / 2)
       (- cols * pcx * cos s + pcz * rows * sin s + cos s / 2)
       (- cols * pcx * sin s * sin a + pcy * rows * cos a - pcz * rows * sin a * cos s + sin s * sin a / 2 - cos a / 2)).
(** geometry.py:95-136 bruker_geometry_from_SE3; [None]: division by cos_sx = 0 (line 117) or by an empty detector side.
    Line 119's in-place clamp of the (1,1) entry does not change a value in [-1, 1]. *)
Definition bruker_geometry_from_SE3 (r : mat) (t : vec) (shape : nat * nat) : option (vec * R * R) :=
  let rows := INR (fst shape) in let cols := INR (snd shape) in
  let cos_sx := m11 r in
  if Req_EM_T cos_sx 0 then None else if Req_EM_T rows 0 then None else if Req_EM_T cols 0 then None else
  let a := acos (clamp1 (m02 r / cos_sx)) in
  let s := acos (clamp1 cos_sx) in
  Some (mkV ((vx t * sin s * cos a - vy t * cos s - vz t * sin a * sin s + 1/2) / cols)
            ((vx t * sin a + vz t * cos a + 1/2) / rows)
            ((vx t * cos a * cos s + vy t * sin s - vz t * sin a * cos s) / rows),
        rad2deg a, rad2deg s).

(** the state of an EBSDGeometry module (register_buffer / Parameter / attributes, lines 198-231) *)
Record bool3 := mkB3 { b0 : bool; b1 : bool; b2 : bool }.
Record geometry := mkG { g_shape : nat * nat; g_pc : mat4; g_vec : twist; g_rot_mask : bool3; g_shift_mask : bool3; g_opt : bool }.
Definition any3 (b : bool3) : bool := b0 b || b1 b || b2 b.
Definition no_mask : bool3 := mkB3 false false false.
(** geometry.py:186-231 __init__; tilts = (sample x, sample y, detector) in degrees *)
Definition geometry_init (shape : nat * nat) (tilts : vec) (pc : vec) (v : option twist) (rots shifts : bool3) : geometry :=
  let (r, t) := bruker_geometry_to_SE3 pc (vz tilts - vy tilts) (vx tilts) shape in
  mkG shape (homog r t) (match v with Some w => w | None => (vzero, vzero) end) rots shifts (any3 rots || any3 shifts).
(** geometry.py:233-255 set_optimizable_se3_params *)
Definition set_optimizable (g : geometry) (rots shifts : option bool3) : geometry :=
  let r := match rots with Some b => b | None => g_rot_mask g end in
  let s := match shifts with Some b => b | None => g_shift_mask g end in
  mkG (g_shape g) (g_pc g) (g_vec g) r s (any3 r || any3 s).
(** tensor * bool mask *)
Definition bmul (b : bool) (x : R) : R := if b then x else 0.
Definition vmask (b : bool3) (v : vec) : vec := mkV (bmul (b0 b) (vx v)) (bmul (b1 b) (vy v)) (bmul (b2 b) (vz v)).
Definition masked (g : geometry) : twist := (vmask (g_rot_mask g) (fst (g_vec g)), vmask (g_shift_mask g) (snd (g_vec g))).
(** geometry.py:257-280 get_detector2sample (both branches of opt_se3 compute the same value) *)
Definition get_detector2sample (g : geometry) : mat * vec :=
  let tune := if g_opt g then se3_exp_map_om (masked g) else se3_exp_map_om (masked g) in
  let d := m4mul (g_pc g) tune in (rot_of d, trans_of d).

Definition vec2 : Type := (R * R)%type.
Definition plane (p : vec2) : vec := mkV (fst p) (snd p) 0.
(** geometry.py:282-347 project2sample *)
Definition project2sample (g : geometry) (p : vec2) (scan : option vec2) : vec :=
  let (r, t) := get_detector2sample g in
  let c := vadd (mapp r (plane p)) t in
  match scan with None => c | Some s => vsub c (plane s) end.
(** x @ R for a row vector x *)
Definition rowmul (x : vec) (r : mat) : vec := mapp (mtr r) x.
(** geometry.py:349-420 backproject2detector; [None]: the ray is parallel to the detector (division by zero, line 415) *)
Definition backproject2detector (g : geometry) (d : vec) (scan : option vec2) : option vec2 :=
  let (r, t) := get_detector2sample g in
  let origin := match scan with Some s => rowmul (vadd (vscale (-1) t) (plane s)) r | None => rowmul (vscale (-1) t) r end in
  let tip := match scan with Some s => vadd d (plane s) | None => d end in
  let tip_d := rowmul (vsub tip t) r in
  let ray := vsub tip_d origin in
  if Req_EM_T (vz ray) 0 then None
  else let k := - vz origin / vz ray in Some (vx origin + k * vx ray, vy origin + k * vy ray).

(** torch.linspace(a, b, n) *)
Definition linspace (a b : R) (n : nat) : list R :=
  match n with
  | 1%nat => [a]
  | _ => map (fun k => a + INR k * (b - a) / INR (n - 1)) (seq 0 n)
  end.
Inductive coords_result := Coords (l : list vec) | ValueError | ZeroDivisionError.
(** one axis of lines 484-497 *)
Definition axis_coords (len bin : nat) : list R :=
  linspace (1/2 * (INR bin - 1)) (INR len - 1/2 * (INR bin - 1)) (len / bin).
(** torch.meshgrid(indexing="ij") stacked and flattened, lines 482-501 *)
Definition mesh_ij (xs ys : list R) : list vec2 := flat_map (fun x => map (fun y => (x, y)) ys) xs.
(** geometry.py:422-503 get_coords_sample_frame *)
Definition get_coords_sample_frame (g : geometry) (binning : nat * nat) : coords_result :=
  let (h, w) := g_shape g in let (bi, bj) := binning in
  match bi with O => ZeroDivisionError | S _ =>
  if negb (Nat.eqb (h mod bi) 0) then ValueError else
  match bj with O => ZeroDivisionError | S _ =>
  if negb (Nat.eqb (w mod bj) 0) then ValueError else
  Coords (map (fun p => project2sample g p None) (mesh_ij (axis_coords h bi) (axis_coords w bj))) end end.

(** x / torch.norm(x); [None]: the zero vector *)
Definition vnormalize (v : vec) : option vec := if Req_EM_T (vnorm v) 0 then None else Some (vscale (/ vnorm v) v).
(** ebsdtorch/ebsd/project_hrebsd.py:80-115, one batch element and one pixel *)
Definition hrebsd_coord (mask_r mask_t : bool3) (v : twist) (q : quat) (finv : mat) (p : vec2) : option vec :=
  let (r, t) := se3_exp_map_split (vmask mask_r (fst v), vmask mask_t (snd v)) in
  match vnormalize (vadd (mapp r (plane p)) t) with
  | None => None
  | Some c => vnormalize (mapp finv (qu_apply q c))
  end.
Inductive hrebsd_result := HCoords (l : list (option vec)) | HValueError | HZeroDivisionError.
(** project_hrebsd.py:12-115 hrebsd_coords, one batch element *)
Definition hrebsd_coords (mask_r mask_t : bool3) (v : twist) (q : quat) (finv : mat) (shape : nat * nat) (bin : nat) : hrebsd_result :=
  let (h, w) := shape in
  match bin with O => HZeroDivisionError | S _ =>
  if negb (Nat.eqb (h mod bin) 0) then HValueError else
  if negb (Nat.eqb (w mod bin) 0) then HValueError else
  HCoords (map (hrebsd_coord mask_r mask_t v q finv) (mesh_ij (axis_coords h bin) (axis_coords w bin))) end.
