(** Specification vocabulary for mutual information: entropy and mutual information of a finite sample. *)
From Coq Require Import String.
From Verif Require Import Base MpModel FitModel MiModel.
Open Scope R_scope.

Definition pair_dec (p q : Z * Z) : {p = q} + {p <> q}.
Proof. decide equality; apply Z.eq_dec. Defined.
(** relative frequency of a value in a sample *)
Definition frequency {A} (dec : forall x y : A, {x = y} + {x <> y}) (l : list A) (x : A) : R := INR (count_occ dec l x) / INR (List.length l).
(** Shannon entropy (nats) of a sample: - sum of p ln p over the values that occur *)
Definition entropy {A} (dec : forall x y : A, {x = y} + {x <> y}) (l : list A) : R :=
  - fold_right Rplus 0 (map (fun x => frequency dec l x * ln (frequency dec l x)) (nodup dec l)).
Definition entropyZ : list Z -> R := entropy Z.eq_dec.
(** mutual information of a sample of pairs: H(X) + H(Y) - H(X, Y) *)
Definition mutual_info (l : list (Z * Z)) : R := entropyZ (map fst l) + entropyZ (map snd l) - entropy pair_dec l.
(** every pair occurs as often as the product of the frequencies of its members says *)
Definition independent (l : list (Z * Z)) : Prop :=
  forall a b, frequency pair_dec l (a, b) = frequency Z.eq_dec (map fst l) a * frequency Z.eq_dec (map snd l) b.
(** [z] is the number of the bin of width 1/n that holds [x] *)
Definition bin_of_value (n : nat) (x : R) (z : Z) : Prop := IZR z <= x * INR n < IZR z + 1.
(** [cells] are the bin numbers of the pixel pairs of two images *)
Inductive paired_bins (n m : nat) : list R -> list R -> list (Z * Z) -> Prop :=
| pb_nil : paired_bins n m [] [] []
| pb_cons x y k l xs ys cs : bin_of_value n x k -> bin_of_value m y l -> paired_bins n m xs ys cs -> paired_bins n m (x :: xs) (y :: ys) ((k, l) :: cs).
Definition below_one (l : list R) : Prop := Forall (fun x => 0 <= x < 1) l.
(** the norm modes other than "none" *)
Definition norm_modes : list string := ["Kvalseth Sum"; "Kvalseth Min"; "Kvalseth Max"; "Yao"; "Strehl-Ghosh"; "Logarithmic"]%string.
(** an image displaced by (d, e) pixels with wrap-around *)
Definition rolled (h w : nat) (p : img) (d e : Z) : img := fun i j => p (Z.to_nat ((Z.of_nat i + d) mod Z.of_nat h)) (Z.to_nat ((Z.of_nat j + e) mod Z.of_nat w)).
Definition image_below_one (h w : nat) (p : img) : Prop := forall i j, (i < h)%nat -> (j < w)%nat -> 0 <= p i j < 1.
(** the smallest and the largest value of an image *)
Definition spans (l : list R) (lo hi : R) : Prop := In lo l /\ In hi l /\ Forall (fun x => lo <= x <= hi) l.
(** [cells] are the bin numbers of the pixel pairs of two images after scaling each to [0, 1], with bins a little (1e-6) wider than 1/n so that 1 falls into the last *)
Inductive scaled_bins (n : nat) (alo ahi blo bhi : R) : list R -> list R -> list (Z * Z) -> Prop :=
| sb_nil : scaled_bins n alo ahi blo bhi [] [] []
| sb_cons x y k l xs ys cs :
    IZR k <= (x - alo) / (ahi - alo) * INR n * (1 - 1/1000000) < IZR k + 1 ->
    IZR l <= (y - blo) / (bhi - blo) * INR n * (1 - 1/1000000) < IZR l + 1 ->
    scaled_bins n alo ahi blo bhi xs ys cs -> scaled_bins n alo ahi blo bhi (x :: xs) (y :: ys) ((k, l) :: cs).
(** the pairs whose bin numbers are both at least 1 *)
Definition above_lowest (l : list (Z * Z)) : list (Z * Z) := filter (fun p => (Z.leb 1 (fst p) && Z.leb 1 (snd p))%bool) l.
(** the pixels of an image, row by row *)
Definition raster (h w : nat) (p : img) : list R := flat_map (fun i => map (fun j => p i j) (seq 0 w)) (seq 0 h).
(** dst displaced as entry (y, x) of the map of an h x w image stands for: the middle entry (h/2, w/2) is no displacement *)
Definition shifted (h w y x : nat) (p : img) : img := rolled h w p (Z.of_nat y - Z.of_nat (h / 2)) (Z.of_nat x - Z.of_nat (w / 2)).
(** the numbers of bins and the chunk size for which the loops of cmif visit every pair of levels *)
Definition whole_table (bd bs chunk : nat) : Prop := ((bd <= 8 /\ bs <= 8) \/ (1 <= chunk /\ (bd - 1) mod chunk <> 0 /\ (bs - 1) mod chunk <> 0))%nat.
