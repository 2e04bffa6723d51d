(** Model of the remaining homochoric / cubochoric conversions of ebsdtorch/s2_and_so3/orientations.py.  One batch element at a time over
    exact reals; [None] stands for a NaN result.  The core maps (ax2ho, ho2ax, qu2ho, cu2ho, ho2cu) are in CuboModel.v. *)
From Coq Require Import String.
From Verif Require Import Base QuatModel OriModel CuboModel.
Local Open Scope string_scope.
Local Open Scope R_scope.

(** orientations.py:539-601 ho2ax_reference: the two tables *)
Definition fit_kikuchipy : list R := [10000000000018852/10000000000000000; -5000000002194847/10000000000000000; -24999992127593126/1000000000000000000;
  -3928701544781374/1000000000000000000; -8152701535450438/10000000000000000000; -2009500426119712/10000000000000000000;
  -2397986776071756/100000000000000000000; -8202868926605841/100000000000000000000; 12448715042090092/100000000000000000000;
  -1749114214822577/10000000000000000000; 1703481934140054/10000000000000000000; -12062065004116828/100000000000000000000;
  59719705868660826/1000000000000000000000; -1980756723965647/100000000000000000000; 3953714684212874/1000000000000000000000;
  -36555001439719544/100000000000000000000000].
Definition fit_emsoft : list R := [9999999999999968/10000000000000000; -49999999999986866/100000000000000000; -25000000000632055/1000000000000000000;
  -3928571496460683/1000000000000000000; -8164666077062752/10000000000000000000; -19411896443261646/100000000000000000000;
  -4985822229871769/100000000000000000000; -14164962366386031/1000000000000000000000; -19000248160936107/10000000000000000000000;
  -572184549898506/100000000000000000000; 7772149920658778/1000000000000000000000; -1053483452909705/100000000000000000000;
  9528014229335313/1000000000000000000000; -5660288876265125/1000000000000000000000; 12844901692764126/10000000000000000000000;
  11255185726258763/10000000000000000000000; -13834391419956455/10000000000000000000000; 7513691751164847/10000000000000000000000;
  -2401996891720091/10000000000000000000000; 4386887017466388/100000000000000000000000; -35917775353564864/10000000000000000000000000].
(** orientations.py:520-619 ho2ax_reference: [inr tt] stands for the ValueError of line 586 *)
Definition ho2ax_ref_with (fit : list R) (ho : vec) : axang :=
  let n2 := vdot ho ho in
  if Rlt_dec (Rabs n2) (1/10^8) then mkA (mkV 0 0 1) 0
  else mkA (vscale (/ sqrt n2) ho) (2 * acos (clamp1 (poly_from 0 fit n2))).
Definition ho2ax_reference (coeffs : string) (ho : vec) : axang + unit :=
  if String.eqb coeffs "kikuchipy" then inl (ho2ax_ref_with fit_kikuchipy ho)
  else if String.eqb coeffs "EMsoft" then inl (ho2ax_ref_with fit_emsoft ho)
  else inr tt.

(** orientations.py:493-517 ho2ax with fast=False in float64: one Newton step on the angle before the identity is masked out (line 502 sets a
    NaN update to 0; the update is NaN exactly when the first angle is 0).  [None]: a first angle of 2 pi, whose update divides by 0. *)
Definition ho2ax_slow (ho : vec) : option axang :=
  let n2 := vdot ho ho in
  let w := 2 * acos (clamp1 (poly_from 0 fit64 n2)) in
  let f_w := cbrt (3/4 * (w - sin w)) - sqrt n2 in
  let f_p_w := (1 - cos w) / (Rpower 6 (2/3) * Rpower (w - sin w) (2/3)) in
  if Rlt_dec (Rabs n2) (1/10^6) then Some (mkA (mkV 0 0 1) 0)
  else if Req_EM_T (w - sin w) 0 then Some (mkA (vscale (/ sqrt n2) ho) w)
  else if Req_EM_T (1 - cos w) 0 then None
  else Some (mkA (vscale (/ sqrt n2) ho) (w - f_w / f_p_w)).

(** orientations.py:654-668 ho2ax_newton: the angle, by [k] Newton steps (line 658: 2 in float32, otherwise 3) from an inverted Pade
    approximation; the axis is in CuboModel.v ([CuboModel.ho2ax_newton]).  The NaN reset of line 665 (angle exactly 0) is not modelled:
    the angle is positive for every non-zero vector of the ball. *)
Definition pade_guess (h : R) : R := (15 - sqrt (225 - 60 * h ^ 2)) / h.
Definition newton_once (h w : R) : R :=
  w - (cbrt (3/4 * (w - sin w)) - h) / ((1 - cos w) / (Rpower 6 (2/3) * Rpower (w - sin w) (2/3))).
Fixpoint newton_iter (k : nat) (h w : R) : R := match k with O => w | S k' => newton_iter k' h (newton_once h w) end.
Definition ho2ax_newton_full (f32 : bool) (ho : vec) : axang :=
  ho2ax_newton (newton_iter (if f32 then 2 else 3) (vnorm ho) (pade_guess (vnorm ho))) ho.

(** orientations.py:1024-1035 qu2cu; [p] is the order of magnitudes chosen by argsort inside ho2cu.  Only the value is modelled, not the
    in-place clamping of the argument by qu2ho (C78). *)
Definition qu2cu (p : perm3) (q : quat) : option vec := option_map (ho2cu p) (fst (qu2ho q)).
(** orientations.py:1039-1049 om2ho, 1109-1119 ro2ho *)
Definition om2ho (m : mat) : option vec := option_map ax2ho (om2ax m).
Definition ro2ho (r : rodr) : option vec := option_map ax2ho (ro2ax r).
(** orientations.py:1053-1063 ax2cu, 1095-1105 ro2cu, 1235-1245 om2cu, 1291-1301 bu2cu, 1305-1315 bu2ho *)
Definition ax2cu (p : perm3) (a : axang) : option vec := qu2cu p (ax2qu a).
Definition ro2cu (p : perm3) (r : rodr) : option vec := match ro2ax r with None => None | Some a => ax2cu p a end.
Definition om2cu (p : perm3) (m : mat) : option vec := qu2cu p (om2qu m).
Definition bu2cu (p : perm3) (b : bunge) : option vec := qu2cu p (bu2qu b).
Definition bu2ho (b : bunge) : option vec := fst (qu2ho (bu2qu b)).
(** orientations.py:1123-1133 cu2ax, 1151-1161 cu2om, 1165-1175 cu2ro, 1193-1203 ho2om, 1207-1217 ho2ro, 1361-1371 cu2bu, 1375-1385 ho2bu *)
Definition cu2ax (fit : list R) (p : perm3) (cu : vec) : axang := ho2ax fit (cu2ho p cu).
Definition cu2om (fit : list R) (p : perm3) (cu : vec) : mat := ax2om (ho2ax fit (cu2ho p cu)).
Definition cu2ro (fit : list R) (p : perm3) (cu : vec) : rodr := ax2ro (ho2ax fit (cu2ho p cu)).
Definition ho2om (fit : list R) (ho : vec) : mat := ax2om (ho2ax fit ho).
Definition ho2ro (fit : list R) (ho : vec) : rodr := ax2ro (ho2ax fit ho).
Definition cu2bu (fit : list R) (p : perm3) (cu : vec) : bunge := qu2bu (cu2qu fit p cu).
Definition ho2bu (fit : list R) (ho : vec) : bunge := qu2bu (ho2qu fit ho).
