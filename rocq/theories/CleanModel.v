(** Model of ExperimentPatterns.standard_clean and do_nlpar (ebsdtorch/ebsd/experiment_pats.py:234-252, 285-316) on top of ExpModel, ClaheModel and NlparModel,
    and of BlurAndDownsample (ebsdtorch/preprocessing/resampling.py:90-119) on top of BlurModel. Exact reals. *)
From Coq Require Import String.
From Verif Require Import Base ExpModel MpModel ClaheModel BlurModel NlparModel.
Open Scope R_scope.

(** experiment_pats.py:234-252 contrast_enhance_clahe: every pattern on its own; [None]: clahe raises *)
Definition contrast_enhance_clahe (s : exp_state) (clip : R) (tiles bins : nat) : option exp_state :=
  match traverse (fun p => match clahe (mkI (e_h s) (e_w s) p) clip bins tiles tiles with Some m => Some (i_px m) | None => None end) (e_pats s) with
  | Some ps => Some (with_pats s ps false)
  | None => None
  end.
Definition after_minmax (s : exp_state) : option exp_state := match normalize_per_pattern s "minmax" with Normalised s' => Some s' | _ => None end.
(** experiment_pats.py:285-295; defaults of lines 236-239 *)
Definition standard_clean (s : exp_state) : option exp_state :=
  match after_minmax (subtract_overall_background s) with
  | None => None
  | Some s1 => match contrast_enhance_clahe s1 40 4 64 with None => None | Some s2 => after_minmax s2 end
  end.

(** experiment_pats.py:297-316 do_nlpar: the stored patterns viewed as a (rows, columns, h, w) scan; [offs] is what argsort makes of the offsets *)
Definition scan_of (s : exp_state) (a b : nat) : scan := mkScan a b (e_h s * e_w s) (fun i j p => nth p (nth (i * b + j) (e_pats s) []) 0).
Inductive nlpar_result := Denoised (s : exp_state) | NlparValueError | NlparFailed.
Definition do_nlpar (offs : list offset) (tol bias coeff : R) (s : exp_state) : nlpar_result :=
  match e_spatial s with
  | [a; b] => match nlpar offs (scan_of s a b) coeff tol bias with
              | NlOk out => Denoised (with_pats s (flat_map (fun i => map (fun j => map (out i j) (seq 0 (e_h s * e_w s))) (seq 0 b)) (seq 0 a)) false)
              | _ => NlparFailed
              end
  | _ => NlparValueError
  end.

(** ---- BlurAndDownsample ---- *)
(** torch's bicubic interpolation (a = -3/4): weights of the four neighbours of a point at fraction t *)
Definition cubic_near (x : R) : R := ((-3/4 + 2) * x - (-3/4 + 3)) * x * x + 1.
Definition cubic_far (x : R) : R := ((-3/4 * x - 5 * (-3/4)) * x + 8 * (-3/4)) * x - 4 * (-3/4).
Definition cubic_weights (t : R) : list R := [cubic_far (t + 1); cubic_near t; cubic_near (1 - t); cubic_far (2 - t)].
(** source coordinate of output sample d of an axis resized from n to m samples (scale n / m, no explicit scale factor: lines 114-116) *)
Definition src_coord (align : bool) (n m d : nat) : R :=
  if align then (if Nat.leb m 1 then 0 else INR d * (INR (n - 1) / INR (m - 1))) else INR n / INR m * (INR d + 1/2) - 1/2.
Definition clampi (n : nat) (z : Z) : nat := Z.to_nat (Z.max 0 (Z.min z (Z.of_nat n - 1))).
(** the four (index, weight) pairs of one axis *)
Definition taps (align : bool) (n m d : nat) : list (nat * R) :=
  let x := src_coord align n m d in let z := floorZ x in
  combine (map (fun k => clampi n (z - 1 + Z.of_nat k)) (seq 0 4)) (cubic_weights (x - IZR z)).
Definition bicubic (align : bool) (m : pic) (h' w' : nat) : pic :=
  mkPic h' w' (fun i j => BlurModel.rsum (map (fun ia => snd ia * BlurModel.rsum (map (fun jb => snd jb * p_at m (fst ia) (fst jb)) (taps align (p_w m) w' j))) (taps align (p_h m) h' i))).
(** resampling.py:97-119 with mode "bicubic"; sigma = 2 s / 6, z-score 3 and reflect padding are GaussianBlur2d's defaults (lines 9-11);
    output size int(H * (1 / s)); [None]: the blur, or an empty input or output of the resize raises *)
Definition out_size (s : R) (n : nat) : nat := Z.to_nat (floorZ (INR n * (1 / s))).
Definition blur_and_downsample (s : R) (align : bool) (z : nat) (m : pic) : option pic :=
  match blur true (2 * s / 6) z m with
  | None => None
  | Some b => if (Nat.ltb 0 (out_size s (p_h m)) && Nat.ltb 0 (out_size s (p_w m)) && Nat.ltb 0 (p_h b) && Nat.ltb 0 (p_w b))%bool then Some (bicubic align b (out_size s (p_h m)) (out_size s (p_w m))) else None
  end.
