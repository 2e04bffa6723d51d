(** Model of ebsdtorch/ebsd/refining.py (get_local_orientation_grid, orientation_grid_refinement, orientation_grad_refinement).
    The simulator (qu_apply + MasterPattern.interpolate) is an arbitrary function [sim] from an orientation to a pattern. *)
From Verif Require Import Base QuatModel LaueModel OriModel CuboModel SampModel ExpModel KnnModel IndexModel.

(** refining.py:13-68 get_local_orientation_grid; [None]: ValueError for another axial_grid_dimension *)
Definition semi_edge (deg : R) : R := deg * Rpower PI (2/3) / 360.
Definition grid_axis (deg : R) (k : nat) : list R := linspace (- semi_edge deg) (semi_edge deg) (2 * k + 1).
Definition cube_of (A : list R) : list vec := flat_map (fun x => flat_map (fun y => map (fun z => mkV x y z) A) A) A.
Definition is0 (x : R) : bool := if Req_EM_T x 0 then true else false.
Definition zeros (v : vec) : nat := ((if is0 (vx v) then 1 else 0) + (if is0 (vy v) then 1 else 0) + (if is0 (vz v) then 1 else 0))%nat.
Definition local_grid (deg : R) (k : nat) (dim : Z) : option (list vec) :=
  let cu := cube_of (grid_axis deg k) in
  if Z.eqb dim 3 then Some cu
  else if Z.eqb dim 2 then Some (filter (fun v => Nat.leb 1 (zeros v)) cu)
  else if Z.eqb dim 1 then Some (filter (fun v => Nat.leb 2 (zeros v)) cu)
  else None.

(** ---- orientation_grid_refinement (lines 71-242), one pattern ---- *)
Section Grid.
Variable fit : list R.
Variable srt : vec -> perm3.          (* torch.argsort inside cu2qu *)
Variable am : list R -> nat.          (* torch.max(...).indices *)
Variable G : list quat.               (* laue_elements(mp.laue_group) *)
Variable score : quat -> R.           (* dot product of the centred experimental with the centred simulated pattern, lines 203-216 *)
Variable shrink : R.
(** lines 177-184: the candidates of one iteration *)
Definition candidates (grid : list vec) (q : quat) : list quat :=
  map (fun cu => to_fz_group G (qu_prod (cu2qu fit (srt cu) cu) q)) grid.
(** lines 234-236: the middle index is compared as a float, so an even number of points never matches *)
Definition shrink_grid (grid : list vec) (best : nat) : list vec :=
  if Nat.eqb (2 * best) (List.length grid - 1) then map (vscale shrink) grid else grid.
(** lines 175-236: n_iter iterations; returns the recorded best dot products and the final orientation *)
Fixpoint refine (n : nat) (grid : list vec) (q : quat) : list R * quat :=
  match n with
  | O => ([], q)
  | S m => let c := candidates grid q in
           let best := am (map score c) in
           let (d, r) := refine m (shrink_grid grid best) (nth best c qid) in
           (nth best (map score c) 0 :: d, r)
  end.
End Grid.

Definition q_of (r : row) : quat := mkQ (nth 0 r 0) (nth 1 r 0) (nth 2 r 0) (nth 3 r 0).
Definition row_of (q : quat) : row := [qw q; qx q; qy q; qz q].
(** similarity of one experimental pattern and one orientation (lines 161, 208-216) *)
Definition similarity (sim : quat -> row) (p : row) (q : quat) : R := dotl (zeromean p) (zeromean (sim q)).
(** Tensor.squeeze() on a shape *)
Definition squeeze (sh : list nat) : list nat := filter (fun d => negb (Nat.eqb d 1)) sh.

(** ---- orientation_grid_refinement, whole scan (average_pattern_center=True) ---- *)
Section Scan.
Variable fit : list R.
Variable srt : vec -> perm3.
Variable am : list R -> nat.
Variable shrink : R.
Record phase_mp := mkPh { ph_laue : Z; ph_sim : quat -> row; ph_pixels : nat (* detector pixels after binning *) }.
(** lines 149-239: one batch.  Line 206 squeezes the simulated patterns (B, K, P); line 211 needs three dimensions. *)
Definition refine_batch (mp : phase_mp) (grid : list vec) (n_iter : nat) (binning : Z) (s : exp_state) (idx : list nat) : res (exp_state * list (list R)) :=
  bind (get_patterns s (map Z.of_nat idx) binning) (fun sp =>
  bind (get_orientations s (Some (map Z.of_nat idx))) (fun oq =>
  match oq with
  | None => Err TypeError
  | Some rows =>
      match checked_group (ph_laue mp) with
      | None => Err IndexError
      | Some G =>
          if Nat.ltb 0 n_iter && negb (Nat.eqb (List.length (squeeze [List.length idx; List.length grid; ph_pixels mp])) 3) then Err RuntimeError else
          let out := map (fun pr => refine fit srt am G (similarity (ph_sim mp) (fst pr)) shrink n_iter grid (q_of (snd pr))) (combine (snd sp) rows) in
          bind (set_orientations s [List.length idx; 4%nat] (map (fun o => row_of (snd o)) out) (Some (map Z.of_nat idx))) (fun s' => Ok (s', map fst out))
      end
  end)).
Fixpoint refine_batches (mp : phase_mp) (grid : list vec) (n_iter : nat) (binning : Z) (s : exp_state) (bs : list (list nat)) : res (exp_state * list (list R)) :=
  match bs with
  | [] => Ok (s, [])
  | b :: r => bind (refine_batch mp grid n_iter binning s b) (fun sd => bind (refine_batches mp grid n_iter binning (fst sd) r) (fun sd' => Ok (fst sd', snd sd ++ snd sd')))
  end.
(** torch.split(indices, batch_size): an index tensor squeezed to zero dimensions is rejected *)
Definition split_indices (batch : nat) (shape_idx : list nat * list nat) : res (list (list nat)) :=
  match fst shape_idx with [] => Err RuntimeError | _ => torch_split batch (snd shape_idx) end.
(** lines 118-242, the scan has one phase ([mp]); the returned dots are those of the patterns in index order *)
Definition refine_scan (mp : phase_mp) (deg : R) (k : nat) (dim : Z) (n_iter batch : nat) (binning : Z) (s : exp_state) : res (exp_state * list (list R)) :=
  bind (get_indices_per_phase s) (fun ph =>
  match ph with
  | [one] => bind (split_indices batch one) (fun bs =>
             match local_grid deg k dim with None => Err ValueError | Some grid => refine_batches mp grid n_iter binning s bs end)
  | _ => Err IndexError      (* several phases: only one master pattern is given here (line 122) *)
  end).
End Scan.

(** ---- orientation_grad_refinement (lines 245-383), one pattern: acceptance only.  [step] is one optimiser step followed by the
    normalisation of lines 368-369 (an arbitrary function); [d0] is the dot product recorded in iteration 0 ---- *)
Section Grad.
Variable step : quat -> quat.
Variable score : quat -> R.
Variable G : list quat.
(** lines 330-369: the dot product of the last iteration (computed before its step) and the orientation after it *)
Fixpoint descend (n : nat) (q : quat) (last : R) : R * quat :=
  match n with O => (last, q) | S m => descend m (step q) (score q) end.
(** line 375 *)
Definition positive_real (q : quat) : quat := if Rle_dec 0 (qw q) then q else mkQ (- qw q) (- qx q) (- qy q) (- qz q).
(** lines 357-358: initial_dots = -dot_products; 383: updates = dot_products < initial_dots.  [None]: n_iter = 0 leaves dot_products unbound *)
Definition grad_refine (n : nat) (q : quat) : option (bool * quat) :=
  match n with
  | O => None
  | S _ => let (d, q') := descend n q 0 in
           let accept := if Rlt_dec d (- score q) then true else false in
           Some (accept, if accept then to_fz_group G (positive_real q') else q)
  end.
End Grad.
