(** Model of ori_color_laue (laue_fz_ori.py:560-613).  The reference direction is one vector, the orientations a batch of shape
    (n, 4).  Conversion of a float to an unsigned byte is only specified for 0 <= x < 256; outside that range the value is an
    argument of the model ([byte], constrained by [byte_ok]). *)
From Verif Require Import Base QuatModel LaueModel SphereModel S2Model.
Local Open Scope R_scope.

(** C fmod on reals: the remainder has the sign of the dividend (line 580) *)
Definition fmod (x m : R) : R := if Rle_dec 0 x then x - m * IZR (Int_part (x / m)) else x + m * IZR (Int_part (- x / m)).
(** Tensor.byte() *)
Definition byte_ok (byte : R -> Z) : Prop := forall x, 0 <= x < 256 -> byte x = Int_part x.
(** lines 577-580: hue from the angle to the z axis, lightness from the azimuth in radians; the saturation is 1 *)
Definition hue_of (v : vec) : R := fmod ((fst (xyz_to_theta_phi v) * 2 + 1/2) / (2 * PI)) 1.
Definition lightness_of (v : vec) : R := snd (xyz_to_theta_phi v).
(** lines 584-589: hue, saturation, lightness to hue, saturation, value.  The NaN of line 586 does not occur on reals. *)
Definition hsl_to_hsv (c : R * R * R) : R * R * R :=
  let '(h, s, l) := c in
  let l2 := l * 2 in
  let s2 := s * (if Rle_dec l2 1 then l2 else 2 - l2) in
  (h, s2, (l2 + s2) / 2).
(** lines 591-611: hue, saturation, value to red, green, blue; an index outside 0..5 leaves the zeros of line 597 *)
Definition hsv_to_rgb (byte : R -> Z) (c : R * R * R) : R * R * R :=
  let '(h, s, v) := c in
  let h6_f := IZR (Int_part (h * 6)) in
  let f := h * 6 - h6_f in
  let p := v * (1 - s) in
  let q := v * (1 - s * f) in
  let t := v * (1 - s * (1 - f)) in
  let i := byte h6_f in
  if (i =? 0)%Z then (v, t, p) else if (i =? 1)%Z then (q, v, p) else if (i =? 2)%Z then (p, v, t)
  else if (i =? 3)%Z then (p, q, v) else if (i =? 4)%Z then (t, p, v) else if (i =? 5)%Z then (v, p, q) else (0, 0, 0).
(** the colour of one direction of the fundamental sector, before the conversion of line 613 *)
Definition color_of (byte : R -> Z) (v : vec) : R * R * R := hsv_to_rgb byte (hsl_to_hsv (hue_of v, 1, lightness_of v)).
(** line 613 *)
Definition to_bytes (byte : R -> Z) (c : R * R * R) : Z * Z * Z := let '(r, g, b) := c in (byte (r * 255), byte (g * 255), byte (b * 255)).
(** lines 560-613; [None] when s2_to_fz_laue raises.  [eps] is the tolerance of the sector test, as in S2Model *)
Definition ori_color_laue (byte : R -> Z) (eps : R) (quaternions : list quat) (reference_direction : vec) (laue_id : Z) : option (list (Z * Z * Z)) :=
  match s2_to_fz_laue eps (map (fun q => qu_apply q reference_direction) quaternions) laue_id with
  | Some vs => Some (map (fun v => to_bytes byte (color_of byte v)) vs)
  | None => None
  end.
