(** Model of ebsdtorch/preprocessing/clahe.py (clahe_grayscale) for one image of the batch.  Pixel counts are integers (the code
    stores them as float32, exact below 2^24; pdf / pdf.sum() * voxels_per_tile is the identity on counts in exact arithmetic). *)
From Verif Require Import Base MpModel.
Open Scope R_scope.

(** Tensor.to(int64): truncation *)
Definition truncZ (x : R) : Z := if Rle_dec 0 x then floorZ x else (- floorZ (- x))%Z.
(** clahe.py:72 *)
Definition bin_of (n_bins : nat) (v : R) : Z := truncZ (v * INR (n_bins - 1)).
(** math.ceil (a / b), clahe.py:47-48 *)
Definition ceil_div (a b : nat) : nat := ((a + b - 1) / b)%nat.
(** clahe.py:51-52 *)
Definition padding (n g : nat) : nat := if Nat.eqb (n mod g) 0 then 0%nat else (g - n mod g)%nat.
(** reflect padding at the end of an axis of length [n], clahe.py:55-59; RuntimeError unless padding < n *)
Definition reflect (n i : nat) : nat := if Nat.ltb i n then i else (2 * (n - 1) - i)%nat.
Definition padded (m : image) (i j : nat) : R := px m (reflect (i_h m) i) (reflect (i_w m) j).
(** clahe.py:61-66: the pixels of tile (a, b), row major *)
Definition tile (m : image) (ht wt a b : nat) : list R :=
  flat_map (fun di => map (fun dj => padded m (a * ht + di) (b * wt + dj)) (seq 0 wt)) (seq 0 ht).
(** clahe.py:69-78: scatter-add histogram; an index outside 0..n_bins-1 is an error *)
Definition bins_ok (nb : nat) (bs : list Z) : bool := forallb (fun z => Z.leb 0 z && Z.ltb z (Z.of_nat nb))%bool bs.
Definition histogram (nb : nat) (bs : list Z) : list Z := map (fun k => Z.of_nat (count_occ Z.eq_dec bs (Z.of_nat k))) (seq 0 nb).
Definition zsum (l : list Z) : Z := fold_right Z.add 0%Z l.
(** clahe.py:84 *)
Definition clip_at (clip_limit : R) (v nb : nat) : Z := Z.max (floorZ (clip_limit * INR v / INR nb)) 1.
(** clahe.py:85-95 *)
Definition redistribute (v nb : nat) (limit : Z) (hist : list Z) : list Z :=
  let c := map (fun x => Z.min x limit) hist in
  let clipped := (Z.of_nat v - zsum c)%Z in
  let residual := (clipped mod Z.of_nat nb)%Z in
  let redist := ((clipped - residual) / Z.of_nat nb)%Z in
  map (fun kx => snd kx + redist + (if Z.ltb (Z.of_nat (fst kx)) residual then 1 else 0))%Z (combine (seq 0 nb) c).
(** clahe.py:82-95 *)
Definition limited (clip_limit : R) (v nb : nat) (hist : list Z) : list Z :=
  if Rlt_dec 0 clip_limit then redistribute v nb (clip_at clip_limit v nb) hist else hist.
(** clahe.py:97-98: cumulative sum over the number of pixels, clamped to [0, 1] *)
Definition cdf_at (v : nat) (hist : list Z) (k : nat) : R := Rmin (Rmax (IZR (zsum (firstn (S k) hist)) / INR v) 0) 1.
(** grid_sample along one axis (bilinear, border, align_corners=False); the three-dimensional sample is the same in each axis *)
Definition lerp1 (size : nat) (f : nat -> R) (v : R) : R :=
  let b := border size (unnorm size v) in let z := floorZ b in
  f (Z.to_nat z) * (IZR (z + 1) - b) + (if Z.ltb (z + 1) (Z.of_nat size) then f (Z.to_nat (z + 1)) else 0) * (b - IZR z).
(** torch.linspace(-1, 1, n)[i] *)
Definition lin (n i : nat) : R := if Nat.eqb n 1 then -1 else -1 + 2 * INR i / INR (n - 1).
(** clahe.py:20-130 *)
Definition tile_cdf (m : image) (clip_limit : R) (nb gh gw a b k : nat) : R :=
  let ht := ceil_div (i_h m) gh in let wt := ceil_div (i_w m) gw in
  cdf_at (ht * wt) (limited clip_limit (ht * wt) nb (histogram nb (map (bin_of nb) (tile m ht wt a b)))) k.
Definition equalise (m : image) (clip_limit : R) (nb gh gw i j : nat) (v : R) : R :=
  lerp1 gh (fun a => lerp1 gw (fun b => lerp1 nb (tile_cdf m clip_limit nb gh gw a b) (v * 2 - 1)) (lin (i_w m) j)) (lin (i_h m) i).
Definition clahe (m : image) (clip_limit : R) (nb gh gw : nat) : option image :=
  if (Nat.ltb (padding (i_h m) gh) (i_h m) && Nat.ltb (padding (i_w m) gw) (i_w m))%bool then
    if forallb (fun a => forallb (fun b => bins_ok nb (map (bin_of nb) (tile m (ceil_div (i_h m) gh) (ceil_div (i_w m) gw) a b))) (seq 0 gw)) (seq 0 gh) then
      Some (mkI (i_h m) (i_w m) (flat_map (fun i => map (fun j => equalise m clip_limit nb gh gw i j (px m i j)) (seq 0 (i_w m))) (seq 0 (i_h m))))
    else None
  else None.
