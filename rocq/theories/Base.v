(** Shared mathematical vocabulary (vectors, matrices, boolean tests on reals, atan2).
    Nothing in this file models repository code; it is the language the models are written in. *)
From Coq Require Export Reals Lra Lia List Bool ZArith Psatz.
Export ListNotations.
Open Scope R_scope.

(** Boolean comparisons: torch's <=, <, ==, on exact reals. *)
Definition Rleb (x y : R) : bool := if Rle_dec x y then true else false.
Definition Rltb (x y : R) : bool := if Rlt_dec x y then true else false.
Definition Reqb (x y : R) : bool := if Req_EM_T x y then true else false.

Lemma Rleb_true x y : Rleb x y = true <-> x <= y.
Proof. unfold Rleb; destruct (Rle_dec x y); split; intros; auto; try discriminate; contradiction. Qed.
Lemma Rleb_false x y : Rleb x y = false <-> y < x.
Proof. unfold Rleb; destruct (Rle_dec x y); split; intros; auto; try discriminate; lra. Qed.
Lemma Rltb_true x y : Rltb x y = true <-> x < y.
Proof. unfold Rltb; destruct (Rlt_dec x y); split; intros; auto; try discriminate; contradiction. Qed.
Lemma Rltb_false x y : Rltb x y = false <-> y <= x.
Proof. unfold Rltb; destruct (Rlt_dec x y); split; intros; auto; try discriminate; lra. Qed.
Lemma Reqb_true x y : Reqb x y = true <-> x = y.
Proof. unfold Reqb; destruct (Req_EM_T x y); split; intros; auto; try discriminate; contradiction. Qed.
Lemma Reqb_false x y : Reqb x y = false <-> x <> y.
Proof. unfold Reqb; destruct (Req_EM_T x y); split; intros; auto; try discriminate; contradiction. Qed.

(** 3-vectors. *)
Record vec := mkV { vx : R; vy : R; vz : R }.
Definition vdot (a b : vec) : R := vx a * vx b + vy a * vy b + vz a * vz b.
Definition vcross (a b : vec) : vec :=
  mkV (vy a * vz b - vz a * vy b) (vz a * vx b - vx a * vz b) (vx a * vy b - vy a * vx b).
Definition vadd (a b : vec) : vec := mkV (vx a + vx b) (vy a + vy b) (vz a + vz b).
Definition vsub (a b : vec) : vec := mkV (vx a - vx b) (vy a - vy b) (vz a - vz b).
Definition vscale (k : R) (a : vec) : vec := mkV (k * vx a) (k * vy a) (k * vz a).
Definition vneg (a : vec) : vec := mkV (- vx a) (- vy a) (- vz a).
Definition vzero : vec := mkV 0 0 0.
Definition vnorm (a : vec) : R := sqrt (vdot a a).
Definition vunit (a : vec) : Prop := vdot a a = 1.

Lemma vec_eq a b : vx a = vx b -> vy a = vy b -> vz a = vz b -> a = b.
Proof. destruct a, b; simpl; intros; subst; reflexivity. Qed.

(** 3x3 matrices, row major. *)
Record mat := mkM { m00:R; m01:R; m02:R; m10:R; m11:R; m12:R; m20:R; m21:R; m22:R }.
Definition mmul (a b : mat) : mat := mkM
  (m00 a*m00 b + m01 a*m10 b + m02 a*m20 b) (m00 a*m01 b + m01 a*m11 b + m02 a*m21 b) (m00 a*m02 b + m01 a*m12 b + m02 a*m22 b)
  (m10 a*m00 b + m11 a*m10 b + m12 a*m20 b) (m10 a*m01 b + m11 a*m11 b + m12 a*m21 b) (m10 a*m02 b + m11 a*m12 b + m12 a*m22 b)
  (m20 a*m00 b + m21 a*m10 b + m22 a*m20 b) (m20 a*m01 b + m21 a*m11 b + m22 a*m21 b) (m20 a*m02 b + m21 a*m12 b + m22 a*m22 b).
Definition mtr (a : mat) : mat :=
  mkM (m00 a) (m10 a) (m20 a) (m01 a) (m11 a) (m21 a) (m02 a) (m12 a) (m22 a).
Definition mid : mat := mkM 1 0 0 0 1 0 0 0 1.
Definition mdet (a : mat) : R :=
  m00 a*(m11 a*m22 a - m12 a*m21 a) - m01 a*(m10 a*m22 a - m12 a*m20 a) + m02 a*(m10 a*m21 a - m11 a*m20 a).
Definition mapp (a : mat) (v : vec) : vec := mkV
  (m00 a*vx v + m01 a*vy v + m02 a*vz v)
  (m10 a*vx v + m11 a*vy v + m12 a*vz v)
  (m20 a*vx v + m21 a*vy v + m22 a*vz v).
Definition madd (a b : mat) : mat := mkM (m00 a+m00 b) (m01 a+m01 b) (m02 a+m02 b)
  (m10 a+m10 b) (m11 a+m11 b) (m12 a+m12 b) (m20 a+m20 b) (m21 a+m21 b) (m22 a+m22 b).
Definition mscale (k : R) (a : mat) : mat := mkM (k*m00 a) (k*m01 a) (k*m02 a)
  (k*m10 a) (k*m11 a) (k*m12 a) (k*m20 a) (k*m21 a) (k*m22 a).
(** A proper rotation matrix. *)
Definition rotation_matrix (a : mat) : Prop := mmul a (mtr a) = mid /\ mmul (mtr a) a = mid /\ mdet a = 1.

Lemma mat_eq a b : m00 a = m00 b -> m01 a = m01 b -> m02 a = m02 b -> m10 a = m10 b -> m11 a = m11 b ->
  m12 a = m12 b -> m20 a = m20 b -> m21 a = m21 b -> m22 a = m22 b -> a = b.
Proof. destruct a, b; simpl; intros; subst; reflexivity. Qed.

(** The standard rotation of [v] about the unit axis [n] by angle [t] (Rodrigues' formula):
    the textbook specification rotations are compared with. *)
Definition rodrigues (n : vec) (t : R) (v : vec) : vec :=
  vadd (vadd (vscale (cos t) v) (vscale (sin t) (vcross n v))) (vscale (vdot n v * (1 - cos t)) n).

(** C/torch atan2 on reals (the sign of zero is not modelled: y = 0, x < 0 gives +PI). *)
Definition atan2 (y x : R) : R :=
  if Rlt_dec 0 x then atan (y / x)
  else if Rlt_dec x 0 then
    (if Rle_dec 0 y then atan (y / x) + PI else atan (y / x) - PI)
  else if Rlt_dec 0 y then PI / 2
  else if Rlt_dec y 0 then - (PI / 2)
  else 0.

(** torch.sign / copysign of a nonzero argument. *)
Definition Rsgn (x : R) : R := if Rlt_dec 0 x then 1 else if Rlt_dec x 0 then -1 else 0.
Definition copysign (m s : R) : R := if Rle_dec 0 s then Rabs m else - Rabs m.

Definition Rmaxb (x y : R) : R := Rmax x y.
