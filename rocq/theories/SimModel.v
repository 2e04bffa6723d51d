(** Model of MonteCarloSimulator (ebsdtorch/crystallography/ebsd_mc.py:248-614): construction, step search, repeated runs, resampling of the depth axis.
    Exact reals; what one kernel launch returns is an argument. *)
From Verif Require Import Base QuatModel SphereModel MpModel MonteModel.

(** constructor arguments (lines 251-266) that the methods use, and the material parameters (lines 303-308) *)
Record sim := mkSim { s_kV : R; s_angle : R; s_binE : R; s_binD : R; s_ndepth : nat; s_log : bool; s_ndir : nat; s_extra : nat; s_minmass : R; s_omega : R; s_Z : R; s_rho : R; s_A : R }.
(** line 299: int(kV // binsize_exit_energy) *)
Definition n_fillable (s : sim) : Z := floorZ (s_kV s / s_binE s).
(** line 300 *)
Definition n_energy_bins (s : sim) : Z := (n_fillable s + Z.of_nat (s_extra s))%Z.
(** lines 303-325: the parameters handed to the kernel; starting energy from lines 314-315 *)
Definition kernel_par (s : sim) : mc_par :=
  mkMC (s_kV s + INR (s_extra s) * s_binE s) (n_energy_bins s) (Z.of_nat (s_ndir s)) (Z.of_nat (s_ndepth s)) (s_binE s) (s_binD s) (s_Z s) (s_rho s) (s_A s) (s_angle s) (s_omega s).

(** a 4D histogram: energy, depth, vertical, horizontal *)
Definition hist := list (list (list (list R))).
(** lines 363-366, 594-597, 609-612: drop the extra energy bins; for omega = 0 average with the horizontally flipped copy *)
Definition post (s : sim) (raw : hist) : hist :=
  let h := skipn (s_extra s) raw in
  if Req_EM_T (s_omega s) 0 then map (map (map symmetrise)) h else h.
(** histogram.sum() over everything below one energy row, and over everything *)
Definition sumR (l : list R) : R := fold_right Rplus 0 l.
Definition sum2 (l : list (list R)) : R := sumR (map sumR l).
Definition row_sum (r : list (list (list R))) : R := sumR (map sum2 r).
Definition hist_sum (h : hist) : R := sumR (map row_sum h).
(** elementwise addition of equally shaped tensors (line 620) *)
Fixpoint zip {A} (f : A -> A -> A) (a b : list A) : list A := match a, b with x :: a', y :: b' => f x y :: zip f a' b' | _, _ => [] end.
Definition hist_add : hist -> hist -> hist := zip (zip (zip (zip Rplus))).

(** lines 602-620: the while loop; [raw k] is what launch number k returns, [per_run] electrons times trials; [None]: still running *)
Fixpoint sim_loop (s : sim) (raw : nat -> hist) (per_run : Z) (k fuel : nat) (h : hist) (bse : R) (sims : Z) : option (hist * Z) :=
  if Rlt_dec bse (s_minmass s) then
    match fuel with
    | O => None
    | S f => let hn := post s (raw k) in sim_loop s raw per_run (S k) f (hist_add h hn) (bse + hist_sum hn) (sims + per_run)%Z
    end
  else Some (h, sims).
(** lines 569-622 run_simulation; default electrons and trials from lines 314-315, 570-571 *)
Definition run_simulation (s : sim) (n_electrons : option Z) (n_trials : Z) (raw : nat -> hist) (fuel : nat) : option (hist * Z) :=
  let n := match n_electrons with Some n => n | None => 1000000%Z end in
  let h := post s (raw 0%nat) in
  sim_loop s raw (n * n_trials)%Z 1 fuel h (hist_sum h) (n * n_trials)%Z.

(** line 345 *)
Definition step_sizes : list nat := [250; 500; 750; 1000; 1250; 1500; 1750; 2000]%nat.
(** lines 361-374: a NaN marginal (all retained bins empty) compares false *)
Definition fills (s : sim) (threshold : R) (raw : hist) : bool :=
  let m := map row_sum (post s raw) in
  let t := sumR m in
  forallb (fun x => if Req_EM_T t 0 then false else if Rlt_dec threshold (x / t) then true else false) (firstn (Z.to_nat (n_fillable s)) m).
(** lines 353-376; [raw n] is what the launch with at most n steps returns *)
Fixpoint first_filling (s : sim) (threshold : R) (raw : nat -> hist) (sizes : list nat) : nat :=
  match sizes with [] => list_max step_sizes | n :: r => if fills s threshold (raw n) then n else first_filling s threshold raw r end.
Definition find_required_steps (s : sim) (threshold : R) (raw : nat -> hist) : nat := first_filling s threshold raw step_sizes.
(** lines 329-336: n_max_steps *)
Inductive override := ONone | OInt (n : Z) | OOther.
Definition n_max_steps (s : sim) (o : override) (raw : nat -> hist) : option Z :=
  match o with ONone => Some (Z.of_nat (find_required_steps s 0 raw)) | OInt n => Some n | OOther => None end.

(** ---- resample_to_linear, lines 482-567 ---- *)
(** lines 505-517 with torch.arange of exact length (see [edge_count_float] for the rounded one) *)
Definition bin_edges (n : nat) (b : R) : list R := map (fun i => exp (INR i * b) - 1) (seq 0 (n + 1)).
(** line 518 *)
Definition bin_markers (n : nat) (b : R) : list R := let e := bin_edges n b in map (fun i => (nth (i + 1) e 0 + nth i e 0) / 2) (seq 0 n).
(** line 519 *)
Definition bin_sizes (n : nat) (b : R) : list R := let e := bin_edges n b in map (fun i => nth (i + 1) e 0 - nth i e 0) (seq 0 n).
(** lines 525-531: torch.arange(w/2, m*w, w) has m entries *)
Definition linear_centers (m : nat) (w : R) : list R := map (fun j => w / 2 + INR j * w) (seq 0 m).
Inductive method := MLinear | MQuadratic | MOther.
Fixpoint sequence {A} (l : list (option A)) : option (list A) :=
  match l with [] => Some [] | Some x :: r => match sequence r with Some r' => Some (x :: r') | None => None end | None :: _ => None end.
(** one (energy, direction) column: lines 522, 541-561; the column must have one entry per bin *)
Definition resample_column (meth : method) (n : nat) (b : R) (m : nat) (w : R) (col : list R) : option (list R) :=
  if negb (Nat.eqb (List.length col) n) then None else
  let dens := map (fun p => fst p / snd p) (combine col (bin_sizes n b)) in
  let vals := match meth with
              | MLinear => sequence (map (interp XError (bin_markers n b) dens) (linear_centers m w))
              | MQuadratic => Some (map (interpquad false (bin_markers n b) dens) (linear_centers m w))
              | MOther => None
              end in
  match vals with Some v => Some (map (fun x => Rmax x 0) v) | None => None end.
(** the whole tensor as its list of columns; depth_mode check of lines 501-502, normalisation of lines 564-565 (total 0: NaN everywhere, [None]) *)
Definition resample (s : sim) (m : nat) (w : R) (meth : method) (normalize : bool) (cols : list (list R)) : option (list (list R)) :=
  if negb (s_log s) then None else
  match meth with MOther => None | _ =>
  match sequence (map (resample_column meth (s_ndepth s) (s_binD s) m w) cols) with
  | None => None
  | Some r => if normalize then (if Req_EM_T (sum2 r) 0 then None else Some (map (map (fun x => x / sum2 r)) r)) else Some r
  end end.

(** lines 507-513 in double precision: the number of edges is ceil(fl(fl(fl(n b) + b) / b)); the rounded values are arguments *)
Definition edge_count_float (r3 : R) : Z := (- floorZ (- r3))%Z.
