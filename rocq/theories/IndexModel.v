(** Model of ebsdtorch/ebsd/indexing.py (dictionary_index_orientations, pca_dictionary_index_orientations; the statements from
    line 478 on are a script).  The simulator (qu_apply + MasterPattern.interpolate + view, lines 120-137) is an arbitrary function
    [sim] from an orientation to a flattened pattern; the orientation dictionary (line 64) is an arbitrary list.  Devices, dtypes,
    progress bars and synchronisation (lines 82-93, 107) have no effect on values here. *)
From Verif Require Import Base KnnModel ExpModel.

Definition ori := list R.
(** torch.split(t, n): consecutive pieces of n rows, the last one possibly shorter; an empty tensor gives one empty piece *)
Fixpoint split_go {A} (fuel n : nat) (l : list A) : list (list A) :=
  match fuel with O => [] | S f => match l with [] => [] | _ => firstn n l :: split_go f n (skipn n l) end end.
Definition torch_split {A} (n : nat) (l : list A) : res (list (list A)) :=
  match l with
  | [] => Ok [[]]
  | _ => if Nat.eqb n 0 then Err RuntimeError else Ok (split_go (List.length l) n l)
  end.
(** x[:, mask.flatten()] for one row *)
Fixpoint keep (mask : list bool) (p : row) : row :=
  match mask, p with true :: m, x :: r => x :: keep m r | false :: m, _ :: r => keep m r | _, _ => [] end.
Definition masked (mask : option (list bool)) (p : row) : res row :=
  match mask with None => Ok p | Some m => if Nat.eqb (List.length m) (List.length p) then Ok (keep m p) else Err IndexError end.
Fixpoint map_res {A B} (f : A -> res B) (l : list A) : res (list B) :=
  match l with
  | [] => Ok []
  | x :: r => match f x with Err e => Err e | Ok y => match map_res f r with Err e => Err e | Ok ys => Ok (y :: ys) end end
  end.
Definition bind {A B} (x : res A) (f : A -> res B) : res B := match x with Ok a => f a | Err e => Err e end.

Record options := mkO {
  o_mask : option (list bool);   (* signal_mask *)
  o_subtract : bool;             (* subtract_exp_pat_mean *)
  o_exp_chunk : nat; o_dict_chunk : nat; o_binning : Z;
  o_topk : nat; o_metric : metric;
  o_quant : bool                 (* quantized_if_x86 and the match device is the CPU *)
}.
(** dictionary row of one orientation (lines 134-147): mask, then subtract the mean *)
Definition dict_row (o : options) (sim : ori -> row) (q : ori) : res row := bind (masked (o_mask o) (sim q)) (fun p => Ok (zeromean p)).
(** experimental rows for a list of pattern numbers: lines 153-166 (whole scan) and 177-194 (chunk) *)
Definition exp_rows (o : options) (s : exp_state) (centre : bool) (idx : list nat) : res (list row) :=
  bind (get_patterns s (map Z.of_nat idx) (o_binning o)) (fun sp =>
  map_res (fun p => bind (masked (o_mask o) p) (fun p' => Ok (if centre then zeromean p' else p'))) (snd sp)).
(** lines 152-203 (and 405-461): the queries made for one dictionary chunk, as (first pattern number, rows); None: query_all.
    [whole]: rows for all patterns at once, [part]: rows for one chunk of pattern numbers. *)
Definition queries (n ec : nat) (whole part : list nat -> res (list row)) : res (list (option nat * list row)) :=
  if Nat.ltb n ec then bind (whole (seq 0 n)) (fun Q => Ok [(None, Q)])
  else bind (torch_split ec (seq 0 n)) (fun parts =>
       map_res (fun idx => bind (part idx) (fun Q => match idx with [] => Err IndexError | i0 :: _ => Ok (Some i0, Q) end)) parts).
Definition kop_of (q : option nat * list row) : kop := match fst q with None => QueryAll (snd q) | Some i => QueryChunk (snd q) i end.
(** matmul of (queries x F) with (F' x dictionary rows) fails for F <> F' *)
Definition same_width (D Q : list row) : bool := forallb (fun d => forallb (fun q => Nat.eqb (List.length q) (List.length d)) Q) D.
Definition of_kres {A} (x : kres A) : res A := match x with KOk a => Ok a | KErr _ => Err RuntimeError end.

Section Run.
Variable qdot : nat -> list R -> list R -> R.
Variable tk : nat -> nat -> nat -> bool -> bool -> nat -> list ext -> list nat.
Variable garbage : nat -> nat -> Z.
(** lines 111-203 (376-461): for every dictionary chunk, set it and run the queries *)
Fixpoint chunk_ops (drow : ori -> res row) (qs : res (list (option nat * list row))) (cs : list (list ori)) : res (list kop) :=
  match cs with
  | [] => Ok []
  | c :: r => bind (map_res drow c) (fun D => bind qs (fun q =>
              if same_width D (concat (map snd q)) then bind (chunk_ops drow qs r) (fun rest => Ok (SetData D :: map kop_of q ++ rest)) else Err RuntimeError))
  end.
(** ori_tensor[matches] and metric_values (lines 206-213); an infinite score is kept as 0 here (it occurs only for entries never searched) *)
Definition look_up (oris : list ori) (e : entry) : res (ori * R) :=
  match norm_idx (List.length oris) (snd e) with
  | None => Err IndexError
  | Some i => Ok (nth i oris [], match fst e with Fin x => x | _ => 0 end)
  end.
(** lines 62-213: one master pattern *)
Definition index_core (o : options) (drow : ori -> res row) (whole part : list nat -> res (list row)) (oris : list ori) (s : exp_state) (phase : nat) : res exp_state :=
  bind (torch_split (o_dict_chunk o) oris) (fun cs =>
  bind (chunk_ops drow (queries (e_n s) (o_exp_chunk o) whole part) cs) (fun ops =>
  bind (of_kres (k_run qdot tk (k_init (Z.of_nat (List.length oris)) (e_n s) (o_topk o) (o_metric o) (o_quant o) garbage) ops)) (fun st =>
  bind (map_res (map_res (look_up oris)) (retrieve_topk tk st)) (fun rows =>
  Ok (set_raw_indexing_results s (map (map fst) rows) (map (map snd) rows) phase))))).
(** the whole-scan branch centres only if asked (line 164); the chunk branch always centres (line 192) *)
Definition index_one (o : options) (sim : ori -> row) (oris : list ori) (s : exp_state) (phase : nat) : res exp_state :=
  index_core o (dict_row o sim) (exp_rows o s (o_subtract o)) (exp_rows o s true) oris s phase.
Fixpoint index_loop (o : options) (mps : list ((ori -> row) * list ori)) (s : exp_state) (i : nat) : res exp_state :=
  match mps with [] => Ok s | (sim, oris) :: r => bind (index_one o sim oris s i) (fun s' => index_loop o r s' (S i)) end.
Definition higher_better (m : metric) : bool := match m with Angular => true | _ => false end.
(** indexing.py:14-219 dictionary_index_orientations with average_pattern_center=True *)
Definition dictionary_index (o : options) (mps : list ((ori -> row) * list ori)) (s : exp_state) : res exp_state :=
  bind (index_loop o mps s 0) (fun s' => combine_indexing_results s' (higher_better (o_metric o))).

(** ---- indexing.py:222-475 pca_dictionary_index_orientations, one master pattern ---- *)
(** t[:, a:b] on a dimension of size F: the selected column numbers (Python slice semantics, step 1) *)
Definition clip (F : nat) (z : Z) : nat := Z.to_nat (Z.max 0 (Z.min (Z.of_nat F) (if Z.ltb z 0 then z + Z.of_nat F else z))).
Definition py_slice (F : nat) (a b : Z) : list nat := seq (clip F a) (clip F b - clip F a).
(** line 355: eigenvectors[:, -n : (-n + 300)] *)
Definition pca_columns (F : nat) (n : Z) : list nat := py_slice F (- n) (- n + 300).
(** lines 399 / 420 / 450: matmul(row, pca_matrix); [E] is the list of the F eigenvectors (columns, each of F entries), ascending
    eigenvalue; a row of another length is rejected *)
Definition project (E : list row) (cols : list nat) (p : row) : res row :=
  if Nat.eqb (List.length p) (List.length E) then Ok (map (fun c => dotl p (nth c E [])) cols) else Err RuntimeError.
(** lines 376-403: the mask was applied to the detector coordinates (line 317), so [sim] already yields the visible pixels *)
Definition pca_dict_row (E : list row) (cols : list nat) (sim : ori -> row) (q : ori) : res row := project E cols (zeromean (sim q)).
(** lines 406-423: the whole-scan branch reads the stored patterns and never bins them *)
Definition pca_whole (o : options) (E : list row) (cols : list nat) (s : exp_state) (idx : list nat) : res (list row) :=
  map_res (fun p => bind (masked (o_mask o) p) (fun p' => project E cols (if o_subtract o then zeromean p' else p'))) (e_pats s).
(** lines 432-450 *)
Definition pca_part (o : options) (E : list row) (cols : list nat) (s : exp_state) (idx : list nat) : res (list row) :=
  bind (exp_rows o s true idx) (map_res (project E cols)).
(** [E]: result of get_eigenvectors (an oracle: PcaModel); n: n_pca_components *)
Definition pca_dictionary_index (o : options) (n : Z) (E : list row) (sim : ori -> row) (oris : list ori) (s : exp_state) : res exp_state :=
  let cols := pca_columns (List.length E) n in
  bind (index_core o (pca_dict_row E cols sim) (pca_whole o E cols s) (pca_part o E cols s) oris s 0)
       (fun s' => combine_indexing_results s' (higher_better (o_metric o))).
End Run.

(** ---- broadcasting of detector_coords - spatial_coords (line 102, average_pattern_center=False): right-aligned shapes ---- *)
Fixpoint bcast (a b : list nat) : option (list nat) :=   (* reversed shapes *)
  match a, b with
  | [], _ => Some b | _, [] => Some a
  | x :: a', y :: b' => match bcast a' b' with
      | None => None
      | Some r => if Nat.eqb x y then Some (x :: r) else if Nat.eqb x 1 then Some (y :: r) else if Nat.eqb y 1 then Some (x :: r) else None end
  end.
Definition broadcast (a b : list nat) : option (list nat) := match bcast (rev a) (rev b) with Some r => Some (rev r) | None => None end.

