(** Model of ebsdtorch/preprocessing/resampling.py (GaussianBlur2d) for one image, and ebsdtorch/preprocessing/radial_mask.py.
    Exact reals for floats; images are functions on their index range. *)
From Verif Require Import Base MpModel.
Open Scope R_scope.

Record pic := mkPic { p_h : nat; p_w : nat; p_at : nat -> nat -> R }.
(** resampling.py:56-58: kernel_size *)
Definition ksize (sigma : R) (z : nat) : R :=
  let K := 2 * INR z * sigma + 1 in if Req_EM_T K (2 * IZR (floorZ (K / 2))) then K + 1 else K.
(** resampling.py:61-66: torch.arange(-K // 2 + 1, K // 2 + 1); Python's // is floor *)
Definition kcoords (sigma : R) (z : nat) : list R :=
  let K := ksize sigma z in let a := (floorZ (- K / 2) + 1)%Z in let b := (floorZ (K / 2) + 1)%Z in
  map (fun i => IZR (a + Z.of_nat i)) (seq 0 (Z.to_nat (b - a))).
Definition rsum (l : list R) : R := fold_right Rplus 0 l.
(** resampling.py:67-71 *)
Definition gauss (sigma x y : R) : R := exp (- (x^2 + y^2) / (2 * sigma^2)).
Definition kernel_sum (sigma : R) (z : nat) : R := rsum (map (fun x => rsum (map (gauss sigma x) (kcoords sigma z))) (kcoords sigma z)).
Definition klen (sigma : R) (z : nat) : nat := List.length (kcoords sigma z).
Definition kernel (sigma : R) (z : nat) (a b : nat) : R := gauss sigma (nth a (kcoords sigma z) 0) (nth b (kcoords sigma z) 0) / kernel_sum sigma z.
(** one padded axis: position [i] of the padded axis (r in front) of an axis of length n; None: zero padding *)
Definition pad_index (refl : bool) (n r i : nat) : option nat :=
  if Nat.ltb i r then (if refl then Some (r - i)%nat else None)
  else if Nat.ltb (i - r) n then Some (i - r)%nat else (if refl then Some (2 * (n - 1) - (i - r))%nat else None).
Definition pad_at (refl : bool) (r : nat) (m : pic) (i j : nat) : R :=
  match pad_index refl (p_h m) r i, pad_index refl (p_w m) r j with Some a, Some b => p_at m a b | _, _ => 0 end.
Definition is_even (n : nat) : nat := if Nat.even n then 1 else 0.
(** resampling.py:31-53, 74-84: pad by (r, r + [even]), convolve, crop one (two if the convolved size is even) off the end.
    Reflect padding raises unless each padding is smaller than the axis; conv2d raises if the padded image is smaller than the kernel. *)
Definition conv_size (n r k : nat) : nat := (n + r + (r + is_even n) + 1 - k)%nat.
Definition crop (n : nat) : nat := (n - (if Nat.even n then 2 else 1))%nat.
Definition blur_ok (refl : bool) (r k : nat) (m : pic) : bool :=
  ((negb refl || (Nat.ltb (r + is_even (p_h m)) (p_h m) && Nat.ltb (r + is_even (p_w m)) (p_w m))) &&
   Nat.leb k (p_h m + r + (r + is_even (p_h m))) && Nat.leb k (p_w m + r + (r + is_even (p_w m))))%bool.
Definition blur_at (refl : bool) (sigma : R) (z : nat) (m : pic) (i j : nat) : R :=
  let k := klen sigma z in
  rsum (map (fun a => rsum (map (fun b => kernel sigma z a b * pad_at refl (k / 2) m (i + a) (j + b)) (seq 0 k))) (seq 0 k)).
Definition blur (refl : bool) (sigma : R) (z : nat) (m : pic) : option pic :=
  let k := klen sigma z in let r := (k / 2)%nat in
  if blur_ok refl r k m then Some (mkPic (crop (conv_size (p_h m) r k)) (crop (conv_size (p_w m) r k)) (blur_at refl sigma z m)) else None.

(** radial_mask.py:6-39 *)
Definition default_radius (h w : nat) (radius : option R) : R := match radius with Some r => r | None => INR (Nat.min h w) / 2 end.
Definition radial_mask (h w : nat) (radius : option R) (c0 c1 : R) (i j : nat) : bool :=
  if Rlt_dec ((INR i - c0 * INR (h - 1))^2 + (INR j - c1 * INR (w - 1))^2) ((default_radius h w radius)^2) then true else false.
