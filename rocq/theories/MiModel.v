(** Model of ebsdtorch/utils/mutual_information.py: mutual_information, binned_nmi, batch_binned_nmi, cmif.  Images are flattened lists of
    exact reals, or functions of (row, column) for cmif.  Batched code is modelled on one pair; batch_binned_nmi on lists of pairs.
    irfft2(rfft2(a) * conj(rfft2(b))) is the circular cross-correlation of FitModel (the correlation theorem of the DFT is trusted). *)
From Coq Require Import String.
From Verif Require Import Base ExpModel MpModel ClaheModel FitModel.
Open Scope R_scope.

Definition rsum (l : list R) : R := fold_right Rplus 0 l.
(** ---- mutual_information (lines 16-92) ---- *)
(** lines 44-49: .long() truncates *)
Definition long_bin (n : nat) (x : R) : Z := ClaheModel.truncZ (x * INR n * (999999/1000000)).
(** lines 38-45: min-max scaling; [None]: a constant image (0/0) or an empty one (min of nothing raises) *)
Definition rescaled (normalize : bool) (p : list R) : option (list R) :=
  match p with
  | [] => None
  | _ => if normalize then if Req_EM_T (maxl p) (minl p) then None else Some (map (fun x => (x - minl p) / (maxl p - minl p)) p) else Some p
  end.
Definition in_range (n : nat) (z : Z) : bool := (Z.leb 0 z && Z.ltb z (Z.of_nat n))%bool.
(** lines 60-74: scatter_(1, bins, 1, reduce="add") into [n] zeros; [None]: an index out of range *)
Definition scatter (n : nat) (bs : list Z) : option (list R) :=
  if forallb (in_range n) bs then Some (map (fun k => INR (count_occ Z.eq_dec bs (Z.of_nat k))) (seq 0 n)) else None.
(** lines 76-79 *)
Definition freqs (h : list R) : list R := map (fun c => c / rsum h) h.
(** p * log p, with an infinite logarithm replaced by 0 (lines 81-90) or the bin left out (lines 201-214) *)
Definition plogp (p : R) : R := if Rlt_dec 0 p then p * ln p else 0.
Definition ent (ps : list R) : R := - rsum (map plogp ps).
(** lines 51-92, from the bin numbers: the joint bin is a * (n_bins - 1) + b (line 51) *)
Definition mi_of_bins (n : nat) (ab bb : list Z) : option R :=
  match scatter (n * n) (map (fun p => fst p * (Z.of_nat n - 1) + snd p)%Z (combine ab bb)), scatter n ab, scatter n bb with
  | Some j, Some a, Some b => Some (ent (freqs a) + ent (freqs b) - ent (freqs j))
  | _, _, _ => None
  end.
(** lines 16-92, one pair of images with the same number of pixels *)
Definition mutual_information (a b : list R) (n : nat) (normalize : bool) : option R :=
  if Nat.eqb (List.length a) (List.length b) then
    match rescaled normalize a, rescaled normalize b with
    | Some a', Some b' => mi_of_bins n (map (long_bin n) a') (map (long_bin n) b')
    | _, _ => None
    end
  else None.

(** ---- binned_nmi (lines 144-252) ---- *)
(** lines 173-174 *)
Definition floor_bin (n : nat) (x : R) : Z := floorZ (x * INR n).
(** line 180: torch.histc(v, bins=N, min=0, max=N) of integers: values outside [0, N] are ignored, N falls into the last bin *)
Definition histc (N : nat) (vs : list Z) : list R :=
  map (fun k => INR (count_occ Z.eq_dec vs (Z.of_nat k)) + (if Nat.eqb (S k) N then INR (count_occ Z.eq_dec vs (Z.of_nat N)) else 0)) (seq 0 N).
(** line 181: .view(binsx, binsy) *)
Definition joint_rows (bx by_ : nat) (h : list R) : list (list R) := map (fun k => map (fun l => nth (k * by_ + l) h 0) (seq 0 by_)) (seq 0 bx).
Definition transpose_sum (rows : list (list R)) (m : nat) : list R := map (fun l => rsum (map (fun r => nth l r 0) rows)) (seq 0 m).
Inductive nmi_result := NmiOk (r : R) | NmiNaN | NmiValueError | NmiError.
(** lines 218-252, and 652-676 of cmif: normalisation; NmiNaN: the division by a vanishing entropy (0/0, or an infinite quotient) *)
Definition quotient (x y : R) : nmi_result := if Req_EM_T y 0 then NmiNaN else NmiOk (x / y).
Definition log_mean (ex ey : R) : option R :=
  if Rlt_dec (Rabs (ex - ey)) (1/1000000) then Some ey
  else if Req_EM_T ex 0 then None else if Req_EM_T ey 0 then None else Some ((ex - ey) / (ln ex - ln ey)).
Definition normalised (norm_mode : string) (mi ex ey ej : R) : nmi_result :=
  if string_dec norm_mode "none" then NmiOk mi
  else if string_dec norm_mode "Kvalseth Sum" then quotient (2 * mi) (ex + ey)
  else if string_dec norm_mode "Kvalseth Min" then quotient mi (Rmin ex ey)
  else if string_dec norm_mode "Kvalseth Max" then quotient mi (Rmax ex ey)
  else if string_dec norm_mode "Yao" then quotient mi ej
  else if string_dec norm_mode "Strehl-Ghosh" then quotient mi (sqrt (ex * ey))
  else if string_dec norm_mode "Logarithmic" then match log_mean ex ey with Some d => quotient mi d | None => NmiNaN end
  else NmiValueError.
(** lines 204-214: log2 for "bits", log otherwise *)
Definition unit_of (mode : string) : R := if string_dec mode "bits" then ln 2 else 1.
(** lines 176-252: [cells] are the bin pairs of the pixels *)
Definition nmi_of_cells (bx by_ : nat) (mode norm_mode : string) (exclude : bool) (cells : list (Z * Z)) : nmi_result :=
  if Nat.eqb (bx * by_) 0 then NmiError else
  let h := histc (bx * by_) (map (fun p => fst p * Z.of_nat by_ + snd p)%Z cells) in
  let J := joint_rows bx by_ h in
  let J := if exclude then map (@tl R) (tl J) else J in
  let total := rsum (map rsum J) in
  if Req_EM_T total 0 then NmiNaN else
  let J := map (map (fun c => c / total)) J in
  let mx := map rsum J in
  let my := transpose_sum J (if exclude then by_ - 1 else by_) in
  let mx := freqs mx in let my := freqs my in
  let u := unit_of mode in
  let ex := ent mx / u in let ey := ent my / u in let ej := ent (concat J) / u in
  normalised norm_mode (ex + ey - ej) ex ey ej.
(** lines 144-252; x and y with different numbers of pixels fail in line 177 *)
Definition binned_nmi (x y : list R) (bx by_ : nat) (mode norm_mode : string) (exclude : bool) : nmi_result :=
  if Nat.eqb (List.length x) (List.length y) then nmi_of_cells bx by_ mode norm_mode exclude (combine (map (floor_bin bx) x) (map (floor_bin by_) y)) else NmiError.
(** lines 255-311 batch_binned_nmi: a single image is paired with every image of the other batch *)
Definition batch_binned_nmi (xs ys : list (list R)) (bx by_ : nat) (mode norm_mode : string) (exclude : bool) : option (list nmi_result) :=
  let n := List.length xs in let m := List.length ys in
  if (Nat.eqb n m || Nat.eqb n 1 || Nat.eqb m 1)%bool then
    Some (map (fun i => binned_nmi (if Nat.eqb n 1 then nth 0 xs [] else nth i xs []) (if Nat.eqb m 1 then nth 0 ys [] else nth i ys []) bx by_ mode norm_mode exclude)
              (seq 0 (if Nat.eqb n m then n else Nat.max n m)))
  else None.

(** ---- cmif (lines 314-677), one pair of images of h rows and w columns ---- *)
(** lines 374-388, 391-404: level 0 is the indicator (a mask, or ones), level k + 1 marks the pixels with (bins * value).byte() = k; the wrap-around of uint8 at 256 is not modelled (the theorems take at most 256 bins) *)
Definition level (bins : nat) (mask : nat -> nat -> bool) (p : img) (k : nat) : img := fun i j =>
  match k with
  | O => if mask i j then 1 else 0
  | S k' => if Z.eqb (ClaheModel.truncZ (INR bins * p i j)) (Z.of_nat k') then 1 else 0
  end.
Definition everywhere : nat -> nat -> bool := fun _ _ => true.
Definition mask_of (m : option (nat -> nat -> bool)) : nat -> nat -> bool := match m with Some f => f | None => everywhere end.
(** irfft2 of the product of spectra, fftshift: counts of (dst level i, src level j) at every displacement *)
Definition pair_count (h w bd bs : nat) (md ms : nat -> nat -> bool) (dst src : img) (i j y x : nat) : R :=
  fftshift h w (xcorr h w (level bd md dst i) (level bs ms src j)) y x.
(** x[x < 1.0] = 0.0 *)
Definition drop1 (x : R) : R := if Rlt_dec x 1 then 0 else x.
(** the marginal of constant_marginal for few bins, lines 513-556: scatter of (bins * value * 0.99999).long() *)
Definition const_bin (bins : nat) (x : R) : Z := ClaheModel.truncZ (INR bins * x * (99999/100000)).
Definition pixels (h w : nat) (p : img) : list R := flat_map (fun i => map (fun j => p i j) (seq 0 w)) (seq 0 h).
(** range(1, bins, chunk) and the levels of the slices i : i + chunk (lines 475-508) *)
Definition chunk_starts (bins chunk : nat) : list nat := map (fun t => (1 + t * chunk)%nat) (seq 0 ((bins - 1 + chunk - 1) / chunk)).
Definition covered (bins chunk : nat) : list nat := flat_map (fun i => seq i (Nat.min chunk (bins + 1 - i))) (chunk_starts bins chunk).
(** replace NaN, infinities and negative values by 0, line 650; [None]: NaN *)
Definition cleaned (x : option R) : R := match x with Some v => if Rlt_dec v 0 then 0 else v | None => 0 end.
(** frequencies over a list of counts; [None]: division by 0 *)
Definition ofreqs (h : list R) : option (list R) := if Req_EM_T (rsum h) 0 then None else Some (freqs h).
Definition oent (h : list R) : option R := option_map ent (ofreqs h).
Inductive cmif_result := CMap (f : nat -> nat -> nmi_result) | COdd | CError.
Definition mi3 (a b c : option R) : option R := match a, b, c with Some x, Some y, Some z => Some (x + y - z) | _, _, _ => None end.
(** the entropies used by the normalisation; NaN entropies give NaN *)
Definition finish (norm_mode : string) (ed es ej : option R) : nmi_result :=
  match ed, es, ej with
  | Some d, Some s, Some j => normalised norm_mode (cleaned (mi3 ed es ej)) s d j
  | _, _, _ => if string_dec norm_mode "none" then NmiOk 0 else
               match (if string_dec norm_mode "Yao" then ej else None) with
               | Some j => quotient 0 j
               | None => match normalised norm_mode 0 1 1 1 with NmiValueError => NmiValueError | _ => NmiNaN end
               end
  end.
(** lines 314-677.  Widths: irfft2 without a size returns an even number of columns, so an odd width gives a map of another width
    (few bins) or a RuntimeError (many bins): COdd.  constant_marginal with many bins indexes with the float indicator image (lines 419-424)
    unless masks are given: CError; with masks it is not modelled (CError too). *)
Definition cmif (h w : nat) (dst src : img) (md ms : option (nat -> nat -> bool)) (bd bs chunk : nat) (constant_marginal : bool) (norm_mode : string) : cmif_result :=
  if Nat.odd w then COdd else
  let cnt := pair_count h w bd bs (mask_of md) (mask_of ms) dst src in
  if (Nat.ltb 8 bs || Nat.ltb 8 bd)%bool then
    if constant_marginal then CError else if Nat.eqb chunk 0 then CError else
    CMap (fun y x =>
      let ed := oent (map (fun i => cnt i 0%nat y x) (seq 1 bd)) in
      let es := oent (map (fun j => cnt 0%nat j y x) (seq 1 bs)) in
      let ej := oent (flat_map (fun j => map (fun i => drop1 (cnt i j y x)) (covered bd chunk)) (covered bs chunk)) in
      finish norm_mode ed es ej)
  else
    let ej y x := oent (flat_map (fun i => map (fun j => drop1 (cnt i j y x)) (seq 1 bs)) (seq 1 bd)) in
    if constant_marginal then
      match scatter bd (map (const_bin bd) (pixels h w dst)), scatter bs (map (const_bin bs) (pixels h w src)) with
      | Some hd, Some hs => CMap (fun y x => finish norm_mode (oent hd) (oent hs) (ej y x))
      | _, _ => CError
      end
    else
      CMap (fun y x =>
        finish norm_mode (oent (map (fun i => drop1 (cnt i 0%nat y x)) (seq 1 bd))) (oent (map (fun j => drop1 (cnt 0%nat j y x)) (seq 1 bs))) (ej y x)).
