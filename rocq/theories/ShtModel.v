(** Model of ebsdtorch/harmonics/sht.py (lines 29-572) and of the transform weights of wigner_d_logspace.py:1042-1330.
    Exact reals; complex numbers are pairs; a dense tensor is a function of its indices (its shape is in the comments); one batch element.
    torch.fft is modelled by the discrete Fourier sum it computes; torch.sparse_coo_tensor adds the values of repeated positions;
    the device and precision arguments are dropped. *)
From Verif Require Import Base WigModel.
Local Open Scope R_scope.

(** sum of f 0 ... f (n - 1) *)
Fixpoint sumn (n : nat) (f : nat -> R) : R := match n with O => 0 | S k => sumn k f + f k end.
Definition cplx := (R * R)%type.
Definition csumn (n : nat) (f : nat -> cplx) : cplx := (sumn n (fun i => fst (f i)), sumn n (fun i => snd (f i))).
Definition cmul (a b : cplx) : cplx := (fst a * fst b - snd a * snd b, fst a * snd b + snd a * fst b).
Definition cscal (r : R) (a : cplx) : cplx := (r * fst a, r * snd a).
Definition cexpi (t : R) : cplx := (cos t, sin t).

(** sht.py:29-47 grid_DriscollHealy, entry (i, j) of the (2B, 2B, 2) result: (theta, phi) *)
Definition grid_dh (B i j : nat) : R * R := (PI * (2 * INR i) / (2 * INR B), PI * (2 * INR j + 1) / (4 * INR B)).
(** sht.py:50-66 normCm, entry i (m = i - (B - 1)); torch.pow(-1.0, m) for an integer m *)
Definition norm_cm (B i : nat) : R := par (Z.of_nat i - (Z.of_nat B - 1)) * sqrt (2 * PI).
(** sht.py:69-85 rnormCm, entry m *)
Definition rnorm_cm (m : nat) : R := par (Z.of_nat m) * sqrt (2 * PI).
(** sht.py:88-104 dltWeightsDH, entry k *)
Definition dlt_weight (B k : nat) : R :=
  2 / INR B * sin (PI * (2 * INR k + 1) / (4 * INR B)) *
  sumn B (fun p => 1 / (2 * INR p + 1) * sin ((2 * INR k + 1) * (2 * INR p + 1) * PI / (4 * INR B))).
(** sht.py:107-122 idctMatrix, entry (k, n) *)
Definition idct_matrix (N k n : nat) : R :=
  cos (PI * INR n * (INR k + / 2) / INR N) * (if Nat.eqb n 0 then sqrt (1 / INR N) else sqrt (2 / INR N)).
(** sht.py:125-140 idstMatrix, entry (k, n) *)
Definition idst_matrix (N k n : nat) : R :=
  sin (PI * (INR n + 1) * (INR k + / 2) / INR N) * (if Nat.eqb n (N - 1) then sqrt (1 / INR N) else sqrt (2 / INR N)).
(** sht.py:144-218 weightedDCST: the linear layer x -> x @ XF with
    XF = diag(W) @ DCT ("c"), DCT^T ("ic"), diag(W) @ DST ("s"), DST^T ("is") *)
Inductive xform := XC | XIC | XS | XIS.
Definition xf_matrix (L : nat) (t : xform) (a b : nat) : R :=
  match t with
  | XC => dlt_weight L a * idct_matrix (2 * L) a b
  | XIC => idct_matrix (2 * L) b a
  | XS => dlt_weight L a * idst_matrix (2 * L) a b
  | XIS => idst_matrix (2 * L) b a
  end.
Definition layer (L : nat) (t : xform) (x : nat -> R) (b : nat) : R := sumn (2 * L) (fun a => x a * xf_matrix L t a b).

(** * The sparse weights *)
(** torch.arange(batch_start, min(batch_start + batch_size, max_index)) for batch_start in range(0, max_index, batch_size) (wigner_d_logspace.py:1071-1077 / 1215-1221) *)
Definition batches (bs mx : nat) : list (list Z) :=
  map (fun j => map Z.of_nat (seq (j * bs) (Nat.min (j * bs + bs) mx - j * bs))) (seq 0 ((mx + bs - 1) / bs)).
Local Open Scope Z_scope.
(** wigner_d_logspace.py:1065 / 1208 *)
Definition max_index (L : Z) : Z := ((((L - 1) * L) / 2 * (L + 1)) / 3) + ((L - 1) * L) / 2 + L.
Definition swap_mn (c : coord) : coord := let '(l, m, n) := c in (l, n, m).
Definition neg_m (c : coord) : coord := let '(l, m, n) := c in (l, - m, n).
Definition m_neq_n (c : coord) : bool := let '(_, m, n) := c in negb (m =? n).
Definition m_neq_0 (c : coord) : bool := let '(_, m, _) := c in negb (m =? 0).
(** wigner_d_logspace.py:1224-1234 (and 1080-1091): the table entries and, where m != n, their transposes *)
Definition expand_half (lmk : list coord) : list coord := lmk ++ map swap_mn (filter m_neq_n lmk).
(** wigner_d_logspace.py:1080-1099: ... and, where m != 0, those with m negated *)
Definition expand_full (lmk : list coord) : list coord := let h := expand_half lmk in h ++ map neg_m (filter m_neq_0 h).
(** wigner_d_logspace.py:1101-1125 / 1236-1259 [term] *)
Definition sht_term (L : nat) (c : coord) : R :=
  let '(l, m, n) := c in
  let N := (2 * INR L)%R in
  if m mod 2 =? 0 then
    ((if n =? 0 then sqrt (N * (2 * IZR l + 1) / 2) else sqrt (N * (2 * IZR l + 1))) * (if m mod 4 =? 2 then -1 else 1))%R
  else if n =? l then 0%R
  else (sqrt (N * (2 * IZR l + 1)) * (if m mod 4 =? 1 then -1 else 1))%R.
(** wigner_d_logspace.py:1127-1149 / 1261-1283 [wig_prod]: all four look-ups are made, torch.where selects afterwards *)
Definition sht_prod (tab : list fl) (c : coord) : option fl :=
  let '(l, m, n) := c in
  match read_lmn true tab (l, n, - m), read_lmn true tab (l, n, 0),
        read_lmn true tab (l, n + 1, - m), read_lmn true tab (l, n + 1, 0) with
  | Some a, Some b, Some a', Some b' => Some (if m mod 2 =? 0 then fmul a b else fmul a' b')
  | _, _, _, _ => None
  end.
Fixpoint all_some {A} (l : list (option A)) : option (list A) :=
  match l with
  | [] => Some []
  | None :: _ => None
  | Some a :: t => option_map (cons a) (all_some t)
  end.
(** one stored value: (row, column, value), or None when it is filtered out (wigner_d_logspace.py:1151-1170 / 1284-1303).
    [off] is L - 1 for the complex and 0 for the real transform; cut is 1e-14 in the code.
    A value that is not finite makes the model return None. *)
Definition sht_entry (cut : R) (L : nat) (off : Z) (tab : list fl) (c : coord) : option (option (Z * Z * R)) :=
  let '(l, m, n) := c in
  match sht_prod tab c with
  | None => None
  | Some p =>
    match fmul (F (sht_term L c)) p with
    | F v => Some (if Rltb cut (Rabs v) then Some ((m + off) * Z.of_nat L + l, 2 * Z.of_nat L * (m + off) + n, v) else None)
    | _ => None
    end
  end.
Definition keep_some {A} (l : list (option A)) : list A := flat_map (fun o => match o with Some a => [a] | None => [] end) l.
(** wigner_d_logspace.py:1042-1181 csht_weights_half_pi and 1184-1314 rsht_weights_half_pi: the list of (row, column, value) of the sparse tensor.
    coords_from_index is used with the exact estimates of WigModel; junk is the uninitialised table memory, fuel bounds its while loops. *)
Definition sht_weights (full : bool) (cut : R) (junk : Z -> fl) (fuel bs L : nat) : option (list (Z * Z * R)) :=
  let off := if full then Z.of_nat L - 1 else 0 in
  match wigner_d_eq_half_pi junk L with
  | None => None
  | Some tab =>
    match all_some (map (fun b => coords_from_index fuel b (map (fun i => l_fp (IZR i)) b) m_fp) (batches bs (Z.to_nat (max_index (Z.of_nat L))))) with
    | None => None
    | Some lmks => option_map (fun es => keep_some (List.concat es))
        (all_some (map (fun lmk => all_some (map (sht_entry cut L off tab) (if full then expand_full lmk else expand_half lmk))) lmks))
    end
  end.
Local Open Scope R_scope.
(** the dense entry (r, c) of a sparse coo tensor: repeated positions are added *)
Definition coo_at (ws : list (Z * Z * R)) (r c : nat) : R :=
  fold_right Rplus 0 (map (fun e => let '(i, j, v) := e in if (Z.of_nat r =? i)%Z && (Z.of_nat c =? j)%Z then v else 0) ws).

(** * Discrete Legendre transform *)
(** reshape of a (rows, w) tensor to a flat one *)
Definition flat (w : nat) (x : nat -> nat -> R) (c : nat) : R := x (c / w)%nat (c mod w)%nat.
Record dlt := mkDlt {
  d_L : nat; d_rows : nat;             (* 2L - 1 or L *)
  d_c : nat -> bool; d_s : nat -> bool; (* membership in cInd, sInd *)
  d_Cm : nat -> R;                     (* self.Cm *)
  d_D : nat -> nat -> R }.             (* self.D, dense *)
(** sht.py:241-247 (cInd, sInd) and 249-257; self.iCm is 1 / Cm *)
Definition c_dlt (L : nat) (ws : list (Z * Z * R)) : dlt :=
  let odd_first := Nat.eqb ((L - 1) mod 2) 1 in
  mkDlt L (2 * L - 1)
    (fun i => if odd_first then Nat.odd i else Nat.even i)
    (fun i => if odd_first then Nat.even i else Nat.odd i)
    (norm_cm L) (coo_at ws).
(** sht.py:388-420 *)
Definition r_dlt (L : nat) (ws : list (Z * Z * R)) : dlt := mkDlt L L Nat.even Nat.odd rnorm_cm (coo_at ws).
(** sht.py:259-276 / 422-439 fdlt: (rows, 2L) -> (rows, L) *)
Definition fdlt (d : dlt) (psiHat : nat -> nat -> R) (i l : nat) : R :=
  let L := d_L d in
  let x := fun i k => d_Cm d i * psiHat i k in
  let y := fun i k => if d_c d i then layer L XC (x i) k else x i k in
  let z := fun i k => if d_s d i then layer L XS (y i) k else y i k in
  sumn (d_rows d * (2 * L)) (fun c => flat (2 * L) z c * d_D d (i * L + l)%nat c).
(** sht.py:278-292 / 441-455 idlt: (rows, L) -> (rows, 2L) *)
Definition idlt (d : dlt) (Psi : nat -> nat -> R) (i k : nat) : R :=
  let L := d_L d in
  let x := fun i n => sumn (d_rows d * L) (fun r => flat L Psi r * d_D d r (i * (2 * L) + n)%nat) in
  let y := fun i k => if d_c d i then layer L XIC (x i) k else x i k in
  let z := fun i k => if d_s d i then layer L XIS (y i) k else y i k in
  1 / d_Cm d i * z i k.

(** * Fourier sums: torch.fft with norm="forward" (the forward transform divides by n, the inverse does not) *)
Definition fft (n : nat) (x : nat -> cplx) (m : nat) : cplx :=
  cscal (1 / INR n) (csumn n (fun j => cmul (x j) (cexpi (- (2 * PI * INR m * INR j / INR n))))).
Definition ifft (n : nat) (x : nat -> cplx) (j : nat) : cplx :=
  csumn n (fun m => cmul (x m) (cexpi (2 * PI * INR m * INR j / INR n))).
Definition fftshift {A} (n : nat) (x : nat -> A) (i : nat) : A := x ((i + (n - n / 2)) mod n)%nat.
Definition ifftshift {A} (n : nat) (x : nat -> A) (i : nat) : A := x ((i + n / 2) mod n)%nat.
(** torch.fft.rfft, norm="forward" *)
Definition rfft (n : nat) (x : nat -> R) (m : nat) : cplx := fft n (fun j => (x j, 0)) m.
(** torch.fft.irfft, norm="forward", of n/2 + 1 coefficients, n even: the imaginary parts of the first and last are ignored *)
Definition irfft (n : nat) (x : nat -> cplx) (j : nat) : R :=
  fst (x 0%nat) + sumn (n / 2 - 1) (fun m => 2 * fst (cmul (x (S m)) (cexpi (2 * PI * INR (S m) * INR j / INR n))))
  + fst (x (n / 2)%nat) * (-1) ^ j.

(** * The transforms *)
(** sht.py:302-341 CSHT.fsht: psi (2L, 2L) indexed by theta, phi -> Psi (2L - 1, L) *)
Definition csht_fsht (L : nat) (ws : list (Z * Z * R)) (psi : nat -> nat -> cplx) (i l : nat) : cplx :=
  let psiHat := fun i k => fftshift (2 * L) (fft (2 * L) (fun j => psi j k)) (i + 1)%nat in
  let d := c_dlt L ws in
  (fdlt d (fun i k => fst (psiHat i k)) i l, fdlt d (fun i k => snd (psiHat i k)) i l).
(** sht.py:343-385 CSHT.isht *)
Definition csht_isht (L : nat) (ws : list (Z * Z * R)) (Psi : nat -> nat -> cplx) (j k : nat) : cplx :=
  let d := c_dlt L ws in
  let psiHat := fun i k => (idlt d (fun i l => fst (Psi i l)) i k, idlt d (fun i l => snd (Psi i l)) i k) in
  let padded := fun i => match i with O => (0, 0) | S i' => psiHat i' k end in
  ifft (2 * L) (ifftshift (2 * L) padded) j.
(** sht.py:465-503 RSHT.fsht: real psi -> Psi (L, L) *)
Definition rsht_fsht (L : nat) (ws : list (Z * Z * R)) (psi : nat -> nat -> R) (i l : nat) : cplx :=
  let psiHat := fun i k => rfft (2 * L) (fun j => psi j k) i in
  let d := r_dlt L ws in
  (fdlt d (fun i k => fst (psiHat i k)) i l, fdlt d (fun i k => snd (psiHat i k)) i l).
(** sht.py:505-548 RSHT.isht: the (L + 1)-th row of coefficients is zero *)
Definition rsht_isht (L : nat) (ws : list (Z * Z * R)) (Psi : nat -> nat -> cplx) (j k : nat) : R :=
  let d := r_dlt L ws in
  let psiHat := fun i => (idlt d (fun i l => fst (Psi i l)) i k, idlt d (fun i l => snd (Psi i l)) i k) in
  irfft (2 * L) (fun i => if Nat.ltb i L then psiHat i else (0, 0)) j.
(** sht.py:551-573 theta_phi_to_xyz *)
Definition theta_phi_to_xyz (tp : R * R) : vec :=
  mkV (cos (fst tp) * sin (snd tp)) (sin (fst tp) * sin (snd tp)) (cos (snd tp)).
