(** Model of ebsdtorch/lie_algebra/se3.py on one batch element, and of the batch handling of the logarithm maps.
    Matrices [..., 3, 3] are [mat]; homogeneous matrices [..., 4, 4] are functions of (row, column). *)
From Verif Require Import Base QuatModel OriModel.

(** se3.py:77-99 skew is OriModel.skew (the same matrix). *)
Definition kform (w : vec) (a b : R) : mat := madd (madd mid (mscale a (skew w))) (mscale b (mmul (skew w) (skew w))).
(** se3.py:102-143 w_exp; theta[~stable] powers written t = theta^2 *)
Definition w_exp (w : vec) : mat :=
  let th := vnorm w in
  if Rlt_dec (1/1000) th then kform w (sin th / th) ((1 - cos th) / th^2)
  else kform w (1 - th^2/6 + th^4/120) (1/2 - th^2/24 + th^4/720).
(** se3.py:146-208 w_exp_vmat *)
Definition w_exp_vmat (w : vec) : mat * mat :=
  let th := vnorm w in
  if Rlt_dec (1/1000) th then
    (kform w (sin th / th) ((1 - cos th) / th^2), kform w ((1 - cos th) / th^2) ((th - sin th) / th^3))
  else (kform w (1 - th^2/6) (1/2 - th^2/24), kform w (1/2 - th^2/24) (1/6 - th^2/120)).
(** se3.py:211-251 w_to_v *)
Definition w_to_v (w : vec) : mat :=
  let th := vnorm w in
  if Rlt_dec (5/100) th then kform w ((1 - cos th) / th^2) ((th - sin th) / th^3)
  else kform w (1/2 - th^2/24 + th^4/720) (1/6 - th^2/120 + th^4/5040).
(** se3.py:254-296 w_to_v_inv (at theta a multiple of 2 PI the code divides by 0; not distinguished) *)
Definition w_to_v_inv (w : vec) : mat :=
  let th := vnorm w in
  if Rlt_dec (5/100) th then kform w (- (1/2)) ((1 - th * cos (th/2) / (2 * sin (th/2))) / th^2)
  else kform w (- (1/2)) (1/12 + th^2/720 + th^4/30240).
(** a twist (..., 6) *)
Definition twist : Type := (vec * vec)%type.
(** se3.py:299-337 se3_exp_map_quat; exp(logsumexp(2 log(|w| + 1e-10)) / 2) is the norm of |w| + 1e-10 *)
Definition quat_theta (w : vec) : R :=
  let th := vnorm w in
  if Rlt_dec (5/100) th then th
  else sqrt ((Rabs (vx w) + 1/10^10)^2 + (Rabs (vy w) + 1/10^10)^2 + (Rabs (vz w) + 1/10^10)^2).
Definition se3_exp_map_quat (v : twist) : quat * vec :=
  let (w, t) := v in
  let th := quat_theta w in
  (ax2qu (mkA (vscale (/ th) w) th), mapp (w_to_v w) t).
(** se3.py:340-360 se3_log_map_quat *)
Definition se3_log_map_quat (q : quat) (t : vec) : option twist :=
  match qu2ax q with
  | None => None
  | Some a => let w := vscale (a_ang a) (a_axis a) in Some (w, mapp (w_to_v_inv w) t)
  end.
(** se3.py:386-404 se3_exp_map_split *)
Definition se3_exp_map_split (v : twist) : mat * vec :=
  let (w, t) := v in let (r, vm) := w_exp_vmat w in (r, mapp vm t).
(** (..., 4, 4) tensors *)
Definition mat4 : Type := nat -> nat -> R.
Definition homog (r : mat) (t : vec) : mat4 := fun i j =>
  match i, j with
  | 0%nat, 0%nat => m00 r | 0%nat, 1%nat => m01 r | 0%nat, 2%nat => m02 r | 0%nat, 3%nat => vx t
  | 1%nat, 0%nat => m10 r | 1%nat, 1%nat => m11 r | 1%nat, 2%nat => m12 r | 1%nat, 3%nat => vy t
  | 2%nat, 0%nat => m20 r | 2%nat, 1%nat => m21 r | 2%nat, 2%nat => m22 r | 2%nat, 3%nat => vz t
  | 3%nat, 3%nat => 1
  | _, _ => 0
  end.
Definition m4mul (a b : mat4) : mat4 := fun i j => a i 0%nat * b 0%nat j + a i 1%nat * b 1%nat j + a i 2%nat * b 2%nat j + a i 3%nat * b 3%nat j.
Definition rot_of (m : mat4) : mat := mkM (m 0 0)%nat (m 0 1)%nat (m 0 2)%nat (m 1 0)%nat (m 1 1)%nat (m 1 2)%nat (m 2 0)%nat (m 2 1)%nat (m 2 2)%nat.
Definition trans_of (m : mat4) : vec := mkV (m 0 3)%nat (m 1 3)%nat (m 2 3)%nat.
(** se3.py:363-383 se3_exp_map_om *)
Definition se3_exp_map_om (v : twist) : mat4 := let (w, t) := v in let (r, vm) := w_exp_vmat w in homog r (mapp vm t).
(** se3.py:425-444 / 465-484, one batch element; [thr] is 0.01 (om) or 0.0001 (split).  sin(theta) = 0 with theta > thr
    (a half turn) divides by zero: [None]. *)
Definition vee (r : mat) : vec := mkV (m21 r - m12 r) (m02 r - m20 r) (m10 r - m01 r).
Definition log_theta (r : mat) : R := acos (clamp1 (1/2 * (m00 r + m11 r + m22 r - 1))).
Definition se3_log (thr : R) (r : mat) (t : vec) : option twist :=
  let th := log_theta r in
  if Rlt_dec thr th then
    if Req_EM_T (sin th) 0 then None
    else let w := vscale (1/2 * th / sin th) (vee r) in Some (w, mapp (w_to_v_inv w) t)
  else let w := vscale (1/2) (vee r) in Some (w, mapp (w_to_v_inv w) t).
(** se3.py:407-444 se3_log_map_om *)
Definition se3_log_map_om (m : mat4) : option twist := se3_log (1/100) (rot_of m) (trans_of m).
(** se3.py:447-484 se3_log_map_split *)
Definition se3_log_map_split (r : mat) (t : vec) : option twist := se3_log (1/10000) r t.

(** se3.py:439 / 479 factor[:, None] * omegas for batch shape [ds]: the shape of the product, or an error.  The result is
    then concatenated with tvecs of shape ds + (3,), which must agree. *)
Definition log_batch_shape (ds : list nat) : option (list nat) :=
  match ds with
  | [] => None
  | n :: rest =>
      match broadcast (n :: 1%nat :: rest) (ds ++ [3%nat]) with
      | Some s => if list_eq_dec Nat.eq_dec s (ds ++ [3%nat]) then Some s else None
      | None => None
      end
  end.
(** the same product for a batch of shape (a, b) with b = 3: entry (i, j, k) is multiplied by factor (i, k) *)
Definition log_omegas_3 (factor : nat -> nat -> R) (om : nat -> nat -> vec) (i j : nat) : vec :=
  mkV (factor i 0%nat * vx (om i j)) (factor i 1%nat * vy (om i j)) (factor i 2%nat * vz (om i j)).
(** se3.py:438 the factor of one matrix (theta small or a half turn included; used only for the batch statement) *)
Definition log_factor (thr : R) (r : mat) : R := if Rlt_dec thr (log_theta r) then 1/2 * log_theta r / sin (log_theta r) else 1/2.
