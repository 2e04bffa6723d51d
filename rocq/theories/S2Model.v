(** Model of ebsdtorch/s2_and_so3/laue_fz_s2.py.  One batch of points is a list of vectors; a call whose final reshape gets the
    wrong number of elements raises ([None]).  [eps] is the tolerance of line 45 (1e-12 or 1e-6). *)
From Coq Require Import String.
From Verif Require Import Base QuatModel LaueModel SphereModel SampModel.

(** laue_fz_s2.py:23-106 s2_in_fz_laue on one unit vector; [None] is the ValueError of line 105 *)
Definition s2_in_fz_laue (eps : R) (v : vec) (id : Z) : option bool :=
  let eta := atan2 (vy v) (vx v) in
  let chi := acos (vz v) in
  let sector lo hi := Rleb lo eta && Rleb eta hi && Rleb 0 chi && Rleb chi (PI/2 + eps) in
  let cubic (t : R) := acos (sqrt (1 / (2 + (tan t)^2))) + eps in
  if (id =? 1)%Z then Some (Rleb 0 (vz v))
  else if (id =? 2)%Z then Some (sector 0 (PI + eps))
  else if (id =? 3)%Z || (id =? 4)%Z then Some (sector 0 (PI/2 + eps))
  else if (id =? 5)%Z then Some (sector 0 (PI/4 + eps))
  else if (id =? 6)%Z then Some (sector (- 2 * PI / 3) (0 + eps))
  else if (id =? 7)%Z then Some (sector (- (PI/2)) (- (PI/6) + eps))
  else if (id =? 8)%Z then Some (sector 0 (PI/3 + eps))
  else if (id =? 9)%Z then Some (sector 0 (PI/6 + eps))
  else if (id =? 10)%Z then
    Some ((if Rle_dec (PI/4) eta then Rleb chi (cubic (PI/2 - eta)) else Rleb chi (cubic eta))
          && Rleb 0 eta && Rleb eta (PI/2 + eps) && Rleb 0 chi)
  else if (id =? 11)%Z then
    Some ((if Rlt_dec (PI/4) eta then Rltb chi (cubic (PI/2 - eta)) else Rleb chi (cubic eta))
          && Rltb 0 eta && Rltb eta (PI/4 + eps) && Rltb 0 chi)
  else None.

(** laue_fz_s2.py:176-182: the images under the group, then their inverted coordinates *)
Definition s2_candidates (G : list quat) (p : vec) : list vec :=
  map (fun g => qu_apply g p) G ++ map (fun g => vneg (qu_apply g p)) G.
Definition in_fz_b (eps : R) (id : Z) (v : vec) : bool := match s2_in_fz_laue eps v id with Some b => b | None => false end.
(** laue_fz_s2.py:154-193 s2_to_fz_laue: equivalent_points[cond] lists the selected candidates of all points in order; the
    reshape to the input shape needs exactly one per point in total *)
Definition s2_to_fz_laue (eps : R) (points : list vec) (id : Z) : option (list vec) :=
  match laue_elements id, s2_in_fz_laue eps (mkV 0 0 1) id with
  | Some G, Some _ =>
      let selected := flat_map (fun p => filter (in_fz_b eps id) (s2_candidates G p)) points in
      if Nat.eqb (length selected) (length points) then Some selected else None
  | _, _ => None
  end.
(** laue_fz_s2.py:196-222 s2_equiv_laue: 2|G| candidates per point reshaped to |G| per point *)
Definition s2_equiv_laue (points : list vec) (id : Z) : option (list vec) :=
  match laue_elements id with
  | Some G =>
      let all := flat_map (s2_candidates G) points in
      if Nat.eqb (length all) (length points * length G) then Some all else None
  | None => None
  end.
(** laue_fz_s2.py:225-257 sample_s2_fz_laue_fibonacci *)
Definition sample_s2_fz_laue_fibonacci (eps : R) (id : Z) (n : nat) : option (list vec) :=
  match get_laue_mult id, s2_in_fz_laue eps (mkV 0 0 1) id with
  | Some m, Some _ => match s2_fibonacci (n * m) "avg" with Some L => Some (filter (in_fz_b eps id) L) | None => None end
  | _, _ => None
  end.
(** laue_fz_s2.py:260-306 sample_s2_fz_laue_rosca.  The NaN of inv_rosca_lambert at the centre of the square fails every
    comparison, so it is dropped by the filter. *)
Definition sample_s2_fz_laue_rosca (eps : R) (id : Z) (n : nat) : option (list vec) :=
  match get_laue_mult id, s2_in_fz_laue eps (mkV 0 0 1) id with
  | Some m, Some _ =>
      let edge := int_of (sqrt (INR (n * m))) in
      let axis := linspace (-1) 1 edge in
      let square := flat_map (fun x => map (fun y => (x, y)) axis) axis in
      Some (filter (in_fz_b eps id) (flat_map (fun s => match inv_rosca_lambert s with Some v => [v] | None => [] end) square))
  | _, _ => None
  end.
