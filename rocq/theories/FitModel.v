(** Model of ebsdtorch/ebsd/fitting.py.  Its bruker_geometries_to_SE3 (57-115) and bruker_geometry_from_SE3 (118-163) are the formulas of
    geometry.py, modelled in GeomModel.  Images are functions of (row, column) together with their sizes. *)
From Verif Require Import Base QuatModel OriModel Se3Model LaueModel KnnSpec ExpModel IndexModel GeomModel.

(** fitting.py:166-220 get_3D_pixel_coords: the axis values of geometry.py, third coordinate 0 *)
Definition pixel_coords (h w bin : nat) : list vec := map plane (mesh_ij (axis_coords h bin) (axis_coords w bin)).
(** lines 252-255: int(...) of a non-negative number *)
Definition pad_of (frac : R) (len bin : nat) : nat := Z.to_nat (Int_part (frac * INR len / INR bin)).
(** one axis of lines 257-279 *)
Definition periphery_axis (len bin prior after : nat) : list R :=
  linspace (1/2 * (INR bin - 1) - INR prior) (INR len + INR after - 1/2 * (INR bin - 1)) (len / bin + prior + after).
(** fitting.py:223-291 get_3D_pixel_coords_with_periphery: coordinates, padding (w_prior, w_after, h_prior, h_after), padded shape *)
Definition periphery_coords (h w bin : nat) (pcx_min pcx_max pcy_min pcy_max : R) : list vec * (nat * nat * nat * nat) * (nat * nat) :=
  let wp := pad_of (1/2 - pcx_min) w bin in let wa := pad_of (pcx_max - 1/2) w bin in
  let hp := pad_of (1/2 - pcy_min) h bin in let ha := pad_of (pcy_max - 1/2) h bin in
  (map plane (mesh_ij (periphery_axis h bin hp ha) (periphery_axis w bin wp wa)), (wp, wa, hp, ha), (h / bin + hp + ha, w / bin + wp + wa)%nat).
(** fitting.py:294-320 apply_geometry, one pixel *)
Definition apply_geometry (r : mat) (t : vec) (p : vec) : option vec := vnormalize (vadd (mapp r p) t).
(** fitting.py:323-356 generate_dictionary_coords, one orientation and one pixel *)
Definition dictionary_coord (r : mat) (t : vec) (q : quat) (p : vec) : option vec :=
  match vnormalize (vadd (mapp r p) t) with None => None | Some c => Some (qu_apply q c) end.

(** ---- spatial_fft_pc_fitter (lines 359-558), metric "dot" ---- *)
Definition img := nat -> nat -> R.
(** lines 396-400: the patterns tensor after the in-place normalisation, one pattern; [None]: constant pattern (0/0) *)
Definition fit_normalise (p : row) : option row :=
  let q := map (fun x => x - minl p) p in
  if Req_EM_T (maxl q) 0 then None else Some (zeromean (map (fun x => x / maxl q) q)).
(** lines 389-400: what the caller's tensor holds afterwards.  With binning the in-place operations act on a fresh tensor. *)
Definition caller_after (bin : nat) (p : row) : option row := if Nat.ltb 1 bin then Some p else fit_normalise p.

Record fit_size := mkF { f_h : nat; f_w : nat (* binned pattern *); f_hp : nat; f_ha : nat; f_wp : nat; f_wa : nat }.
Definition rows_of (f : fit_size) : nat := (f_h f + f_hp f + f_ha f)%nat.
Definition cols_of (f : fit_size) : nat := (f_w f + f_wp f + f_wa f)%nat.
(** line 412 pad *)
Definition padded (f : fit_size) (p : img) : img := fun n m =>
  if (Nat.leb (f_hp f) n && Nat.ltb n (f_hp f + f_h f) && Nat.leb (f_wp f) m && Nat.ltb m (f_wp f + f_w f))%bool then p (n - f_hp f)%nat (m - f_wp f)%nat else 0.
(** irfft2(rfft2(sim) * conj(rfft2(pattern))): circular cross-correlation (the correlation theorem of the DFT is taken for granted) *)
Definition xcorr (N M : nat) (sim pat : img) : img := fun d e =>
  coord_sum N (fun n => coord_sum M (fun m => sim ((n + d) mod N)%nat ((m + e) mod M)%nat * pat n m)).
(** fftshift over both axes *)
Definition fftshift (N M : nat) (c : img) : img := fun y x => c ((y + (N - N / 2)) mod N)%nat ((x + (M - M / 2)) mod M)%nat.
(** lines 494-496 *)
Definition dots_full (f : fit_size) (sim p : img) : img := fftshift (rows_of f) (cols_of f) (xcorr (rows_of f) (cols_of f) sim (padded f p)).

Section Fit.
Variable am : list R -> nat.   (* torch.max(...).indices / argmax *)
(** lines 511-519 for one pc_z, pattern and position: one dictionary batch *)
Definition cell_step (acc : R * nat) (b : list R) : R * nat :=
  let v := nth (am b) b 0 in
  let best := Rmax (fst acc) v in
  (best, if Req_EM_T best v then am b else snd acc).
(** lines 431-438, 469-519: zero-initialised, then one step per dictionary batch *)
Definition cell_scan (bs : list (list R)) : R * nat := fold_left cell_step bs (0, 0%nat).
Definition cell (batch : nat) (scores : list R) : R * nat := cell_scan (split_go (List.length scores) batch scores).

(** line 540-541 *)
Definition report (pad len idx : nat) : R := 1/2 + IZR (Z.of_nat idx - Z.of_nat pad - Z.of_nat ((len + 1) / 2)) / INR len.
Definition positions (Z N M : nat) : list (nat * nat * nat) := flat_map (fun z => flat_map (fun y => map (fun x => (z, y, x)) (seq 0 M)) (seq 0 N)) (seq 0 Z).
(** lines 468-558.  [sim z q] is the enlarged simulated pattern; [pats] the normalised patterns; [dict] the orientations.
    irfft2 without a size returns an even number of columns (line 495), so an odd padded width fails in torch.maximum. *)
Definition fitter (f : fit_size) (zs : list R) (dict : list quat) (batch : nat) (sim : R -> quat -> img) (pats : list img) : res (vec * list quat) :=
  if Nat.eqb batch 0 then Err ExpModel.ValueError else
  if Nat.odd (cols_of f) then Err ExpModel.RuntimeError else
  let value z (p : img) y x := cell batch (map (fun q => dots_full f (sim (nth z zs 0) q) p y x) dict) in
  let avg (zyx : nat * nat * nat) := let '(z, y, x) := zyx in meanl (map (fun p => fst (value z p y x)) pats) in
  let pos := positions (List.length zs) (rows_of f) (cols_of f) in
  match pos with
  | [] => Err ExpModel.IndexError
  | _ =>
      let '(z, y, x) := nth (am (map avg pos)) pos (0, 0, 0)%nat in
      match traverse (fun p => nth_error dict (snd (value z p y x))) pats with
      | None => Err ExpModel.IndexError
      | Some qs => Ok (mkV (report (f_wp f) (f_w f) x) (report (f_hp f) (f_h f) y) (nth z zs 0), qs)
      end
  end.
End Fit.
