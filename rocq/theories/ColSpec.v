(** What a colour should be: the usual HSL to RGB conversion (chroma, intermediate and offset), and eight bits per channel. *)
From Verif Require Import Base QuatModel.
Local Open Scope R_scope.

(** chroma (1 - |2L - 1|) S; second largest component C (1 - |H' mod 2 - 1|) with H' = 6 h; offset L - C / 2 *)
Definition hsl_rgb (h s l : R) : R * R * R :=
  let c := (1 - Rabs (2 * l - 1)) * s in
  let k := Int_part (6 * h) in
  let m2 := 6 * h - 2 * IZR (k / 2) in
  let x := c * (1 - Rabs (m2 - 1)) in
  let o := l - c / 2 in
  if (k =? 0)%Z then (c + o, x + o, o) else if (k =? 1)%Z then (x + o, c + o, o) else if (k =? 2)%Z then (o, c + o, x + o)
  else if (k =? 3)%Z then (o, x + o, c + o) else if (k =? 4)%Z then (x + o, o, c + o) else (c + o, o, x + o).
(** eight bits: 255 c rounded down *)
Definition bytes_of (c : R * R * R) : Z * Z * Z := let '(r, g, b) := c in (Int_part (255 * r), Int_part (255 * g), Int_part (255 * b)).
(** all three channels between 0 and 1 *)
Definition in_gamut (c : R * R * R) : Prop := let '(r, g, b) := c in 0 <= r <= 1 /\ 0 <= g <= 1 /\ 0 <= b <= 1.
Definition smallest (c : R * R * R) : R := let '(r, g, b) := c in Rmin (Rmin r g) b.
(** polar angle and azimuth of a direction *)
Definition has_angles (v : vec) (polar azimuth : R) : Prop :=
  0 < polar < PI /\ - PI < azimuth <= PI /\ vx v = sin polar * cos azimuth /\ vy v = sin polar * sin azimuth /\ vz v = cos polar.
(** the hue the colouring gives to a polar angle *)
Definition hue (polar : R) : R := (2 * polar + 1/2) / (2 * PI).
