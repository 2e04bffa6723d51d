(** Model of ebsdtorch/s2_and_so3/quaternions.py.
    Every torch function there acts on the last axis (size 4 or 3) independently for each batch element;
    the model is the action on one element over exact reals.  Float rounding is not modelled. *)
From Verif Require Import Base.

(** A quaternion (w, x, y, z): the last axis of size 4 (quaternions.py:5-10). *)
Record quat := mkQ { qw : R; qx : R; qy : R; qz : R }.

Definition qneg (q : quat) : quat := mkQ (- qw q) (- qx q) (- qy q) (- qz q).
Definition qscale (k : R) (q : quat) : quat := mkQ (k * qw q) (k * qx q) (k * qy q) (k * qz q).
Definition qadd (a b : quat) : quat := mkQ (qw a + qw b) (qx a + qx b) (qy a + qy b) (qz a + qz b).
Definition qid : quat := mkQ 1 0 0 0.
Definition qdot (a b : quat) : R := qw a * qw b + qx a * qx b + qy a * qy b + qz a * qz b.
(** torch.norm(qu, dim=-1) *)
Definition qnorm (q : quat) : R := sqrt (qdot q q).
Definition qvec (q : quat) : vec := mkV (qx q) (qy q) (qz q).

(** quaternions.py:27-38 qu_std: where(w >= 0, qu, -qu) *)
Definition qu_std (q : quat) : quat := if Rle_dec 0 (qw q) then q else qneg q.

(** quaternions.py:41-52 qu_norm: qu / norm (component-wise division; norm 0 gives NaN in torch) *)
Definition qu_norm (q : quat) : quat :=
  mkQ (qw q / qnorm q) (qx q / qnorm q) (qy q / qnorm q) (qz q / qnorm q).

(** quaternions.py:55-74 qu_prod_raw *)
Definition qu_prod_raw (a b : quat) : quat :=
  mkQ (qw a * qw b - qx a * qx b - qy a * qy b - qz a * qz b)
      (qw a * qx b + qx a * qw b + qy a * qz b - qz a * qy b)
      (qw a * qy b - qx a * qz b + qy a * qw b + qz a * qx b)
      (qw a * qz b + qx a * qy b - qy a * qx b + qz a * qw b).

(** quaternions.py:77-91 qu_prod *)
Definition qu_prod (a b : quat) : quat := qu_std (qu_prod_raw a b).

(** quaternions.py:94-114 qu_slerp on one pair of quaternions (tensors of shape (4,)).
    A zero quaternion or sin_theta = 0 divides by zero (NaN in torch): [None]. *)
Definition qu_slerp (a b : quat) (t : R) : option quat :=
  if Req_EM_T (qnorm a) 0 then None else if Req_EM_T (qnorm b) 0 then None else
  let a := qu_norm a in
  let b := qu_norm b in
  let cos_theta := qdot a b in
  let angle := acos cos_theta in
  let sin_theta := sin angle in
  if Req_EM_T sin_theta 0 then None else
  let w1 := sin ((1 - t) * angle) / sin_theta in
  let w2 := sin (t * angle) / sin_theta in
  Some (qadd (qscale w1 a) (qscale w2 b)).

(** torch broadcasting of two shapes (row-major dimension lists, aligned at the right). *)
Fixpoint bc_rev (s t : list nat) : option (list nat) :=
  match s, t with
  | [], _ => Some t
  | _, [] => Some s
  | a :: s', b :: t' =>
      match bc_rev s' t' with
      | None => None
      | Some r => if Nat.eqb a b then Some (a :: r)
                  else if Nat.eqb a 1 then Some (b :: r)
                  else if Nat.eqb b 1 then Some (a :: r) else None
      end
  end.
Definition broadcast (s t : list nat) : option (list nat) :=
  match bc_rev (rev s) (rev t) with Some r => Some (rev r) | None => None end.
(** torch.squeeze(-1): drops the last dimension when it is 1. *)
Definition squeeze_last (s : list nat) : list nat :=
  match rev s with 1%nat :: r => rev r | _ => s end.

(** quaternions.py:94-114 qu_slerp, shape of the result for inputs of shape batch ++ [4]:
    cos_theta = sum(dim=-1) has shape batch; line 114 multiplies a.unsqueeze(-1) : batch++[4,1] by w1 : batch,
    then squeeze(-1). *)
Definition qu_slerp_shape (batch : list nat) : option (list nat) :=
  match broadcast (batch ++ [4; 1]%nat) batch with
  | Some s => Some (squeeze_last s)
  | None => None
  end.

(** quaternions.py:117-132 qu_prod_pos_real *)
Definition qu_prod_pos_real (a b : quat) : R :=
  Rabs (qw a * qw b - qx a * qx b - qy a * qy b - qz a * qz b).

(** quaternions.py:135-148 qu_triple_prod_pos_real *)
Definition qu_triple_prod_pos_real (a b c : quat) : R := qu_prod_pos_real a (qu_prod b c).

(** quaternions.py:151-168 qu_prod_axis *)
Definition qu_prod_axis (a b : quat) : vec :=
  mkV (qw a * qx b + qx a * qw b + qy a * qz b - qz a * qy b)
      (qw a * qy b - qx a * qz b + qy a * qw b + qz a * qx b)
      (qw a * qz b + qx a * qy b - qy a * qx b + qz a * qw b).

(** quaternions.py:171-183 qu_conj: qu * [1,-1,-1,-1] *)
Definition qu_conj (q : quat) : quat := mkQ (qw q * 1) (qx q * -1) (qy q * -1) (qz q * -1).

(** quaternions.py:186-213 qu_apply (the point enters with a real part of 1, as in the code) *)
Definition qu_apply (qu : quat) (p : vec) : vec :=
  let aw := qw qu in let ax := qx qu in let ay := qy qu in let az := qz qu in
  let bx := vx p in let by_ := vy p in let bz := vz p in
  let iw := aw - ax * bx - ay * by_ - az * bz in
  let ix := aw * bx + ax + ay * bz - az * by_ in
  let iy := aw * by_ - ax * bz + ay + az * bx in
  let iz := aw * bz + ax * by_ - ay * bx + az in
  mkV (- iw * ax + ix * aw - iy * az + iz * ay)
      (- iw * ay + ix * az + iy * aw - iz * ax)
      (- iw * az - ix * ay + iy * ax + iz * aw).

(** quaternions.py:216-227 qu_norm_std *)
Definition qu_norm_std (q : quat) : quat := qu_std (qu_norm q).

(** quaternions.py:230-267 quaternion_rotate_sets_sphere, for one pair of points.
    [valid] is the boolean mask of line 248; rows outside the mask get (1,0,0,0) (lines 265-266). *)
Definition quaternion_rotate_sets_sphere (s f : vec) : quat :=
  if Rlt_dec (Rabs (vdot s f)) (999999 / 1000000) then
    let cross := vcross s f in
    let dot := vdot s f in
    let angle0 := atan2 (vnorm cross) dot in
    let angle := if Rlt_dec angle0 0 then angle0 + 2 * PI else angle0 in
    let k := sin (angle / 2) in
    mkQ (cos (angle / 2)) (k * (vx cross / vnorm cross)) (k * (vy cross / vnorm cross)) (k * (vz cross / vnorm cross))
  else mkQ 1 0 0 0.

(** quaternions.py:270-281 qu_angle *)
Definition qu_angle (q : quat) : R := 2 * acos (qw q).
