(** Model of ebsdtorch/harmonics/sht_cc.py (lines 55-312).
    Exact reals; complex numbers are pairs; a tensor is a function of its indices.  The correlation of one pair (f, g) is modelled;
    [cc_batch] is the batch broadcasting around it.  torch.fft is modelled by the discrete Fourier sums it computes. *)
From Verif Require Import Base WigModel ShtModel.
Local Open Scope R_scope.

Definition cadd (a b : cplx) : cplx := (fst a + fst b, snd a + snd b).
Definition cconj (a : cplx) : cplx := (fst a, - snd a).
(** a table read that the code takes for granted (read_mn_wigner_d_half_pi_table, swap_mn = False) *)
Definition rd (tab : list fl) (l m n : Z) : R := match read_lmn false tab (l, m, n) with Some (F x) => x | _ => 0 end.
Definition rd_ok (tab : list fl) (l m n : Z) : bool := match read_lmn false tab (l, m, n) with Some (F _) => true | _ => false end.
Definition zrange (l : nat) : list Z := map (fun i => (Z.of_nat i - Z.of_nat l)%Z) (seq 0 (2 * l + 1)).
(** every look-up of the loops (lines 119-152, 264-290) is inside the table and finite *)
Definition reads_ok (tab : list fl) (B : nat) : bool :=
  forallb (fun l => forallb (fun m => forallb (rd_ok tab (Z.of_nat l) m) (zrange l)) (zrange l)) (seq 0 B).
Definition vol := nat -> nat -> nat -> cplx.
(** sht_cc.py:104-118: entry at position i of g_n = cat([(g[1..l] * (-1)^m).flip, conj(g[0..l])]), of length 2l + 1 *)
Definition g_n (g : nat -> nat -> cplx) (l i : nat) : cplx :=
  if Nat.ltb i l then cscal (par (Z.of_nat (l - i))) (g (l - i)%nat l) else cconj (g (i - l)%nat l).
(** sht_cc.py:102-156: one pass of the loop over l; the slices are m in 0..l, k and n in -l+B-1 .. l+B-1 *)
Definition rs_step (B : nat) (f g : nat -> nat -> cplx) (tab : list fl) (cc : vol) (l : nat) : vol := fun m k n =>
  if (Nat.leb m l && Nat.leb (B - 1 - l) k && Nat.leb k (l + B - 1) && Nat.leb (B - 1 - l) n && Nat.leb n (l + B - 1))%bool then
    let zk := (Z.of_nat k - (Z.of_nat B - 1))%Z in
    let zn := (Z.of_nat n - (Z.of_nat B - 1))%Z in
    cadd (cc m k n) (cscal (rd tab (Z.of_nat l) (Z.of_nat m) zk * rd tab (Z.of_nat l) zk zn) (cmul (f m l) (g_n g l (n - (B - 1 - l)))))
  else cc m k n.
Definition zero_vol : vol := fun _ _ _ => (0, 0).
(** torch.fft.irfft, norm="forward", n = 2B - 1 (odd), of B coefficients *)
Definition irfft_odd (B : nat) (x : nat -> cplx) (j : nat) : R :=
  fst (x 0%nat) + sumn (B - 1) (fun m => 2 * fst (cmul (x (S m)) (cexpi (2 * PI * INR (S m) * INR j / INR (2 * B - 1))))).
(** sht_cc.py:55-169 rs2cc_ *)
Definition rs2cc (B : nat) (f g : nat -> nat -> cplx) (tab : list fl) : option (nat -> nat -> nat -> R) :=
  let N := (2 * B - 1)%nat in
  if reads_ok tab B then
    let cc := fold_left (rs_step B f g tab) (seq 0 B) zero_vol in
    let sh := fun m k n => ifftshift N (fun k' => ifftshift N (cc m k') n) k in
    Some (fun jm jk jn => irfft_odd B (fun m => ifft N (fun k => ifft N (sh m k) jn) jk) jm)
  else None.
(** sht_cc.py:172-222 rs2cc_fast_: d holds d^l_mn at (l, m + B - 1, n + B - 1); g_n_aug (lines 207-213) is computed but not used.
    irfftn pads the n dimension, of size B, with zeros up to 2B - 1. *)
Definition rs2cc_fast (B : nat) (f g : nat -> nat -> cplx) (d : nat -> nat -> nat -> R) : nat -> nat -> nat -> R :=
  let N := (2 * B - 1)%nat in
  let f_lmk := fun l m k => cscal (d l (m + (B - 1))%nat k) (f m l) in
  let g_lkn := fun l k n => cscal (d l k (n + (B - 1))%nat) (cconj (g n l)) in
  let cc : vol := fun m k n => csumn B (fun l => cmul (f_lmk l m k) (g_lkn l k n)) in
  let sh := fun m k n => ifftshift N (fun k' => cc m k' n) k in
  let padded := fun m k n => if Nat.ltb n B then sh m k n else (0, 0) in
  fun jm jk jn => irfft_odd B (fun m => ifft N (fun k => ifft N (padded m k) jn) jk) jm.
(** sht_cc.py:263-298: one pass of the loop over l of cs2cc_ *)
Definition cs_step (B : nat) (f g : nat -> nat -> cplx) (tab : list fl) (cc : vol) (l : nat) : vol := fun m k n =>
  if (Nat.leb (B - 1 - l) m && Nat.leb m (l + B - 1) && Nat.leb (B - 1 - l) k && Nat.leb k (l + B - 1) && Nat.leb (B - 1 - l) n && Nat.leb n (l + B - 1))%bool then
    let zm := (Z.of_nat m - (Z.of_nat B - 1))%Z in
    let zk := (Z.of_nat k - (Z.of_nat B - 1))%Z in
    let zn := (Z.of_nat n - (Z.of_nat B - 1))%Z in
    cadd (cc m k n) (cscal (rd tab (Z.of_nat l) zm zk * rd tab (Z.of_nat l) zk zn) (cmul (f m l) (cconj (g n l))))
  else cc m k n.
Definition cabs (a : cplx) : R := sqrt (fst a * fst a + snd a * snd a).
(** sht_cc.py:225-312 cs2cc_ *)
Definition cs2cc (B : nat) (f g : nat -> nat -> cplx) (tab : list fl) : option (nat -> nat -> nat -> R) :=
  let N := (2 * B - 1)%nat in
  if reads_ok tab B then
    let cc := fold_left (cs_step B f g tab) (seq 0 B) zero_vol in
    let sh := fun m k n => ifftshift N (fun m' => ifftshift N (fun k' => ifftshift N (cc m' k') n) k) m in
    Some (fun jm jk jn => cabs (ifft N (fun m => ifft N (fun k => ifft N (sh m k) jn) jk) jm))
  else None.
(** sht_cc.py:82-88 (and 199-203, 251-257): None is the ValueError; otherwise the (f, g) pair used by each output of the batch *)
Definition cc_batch (b1 b2 : nat) : option (list (nat * nat)) :=
  if (negb (Nat.eqb b1 b2) && negb (Nat.eqb b1 1) && negb (Nat.eqb b2 1))%bool then None
  else Some (map (fun i => ((if Nat.eqb b1 1 then 0 else i), (if Nat.eqb b2 1 then 0 else i))%nat) (seq 0 (Nat.max b1 b2))).
