(** Model of ebsdtorch/ebsd/experiment_pats.py (ExperimentPatterns).
    Tensors of patterns are lists of flattened patterns (row major); per-pattern tables (orientations, coordinates, inverse
    deformation gradients) are lists of rows.  Exceptions are values.  Values, not references: see [AliasModel] at the end of
    this file for the sharing of storage with the caller. *)
From Coq Require Import String.
From Verif Require Import Base.

Inductive err := ValueError | TypeError | AttributeError | IndexError | KeyError | RuntimeError.
Inductive res (A : Type) := Ok (a : A) | Err (e : err).
Arguments Ok {A}. Arguments Err {A}.
Definition row := list R.
Record exp_state := mkE {
  e_spatial : list nat;            (* self.spatial_shape *)
  e_h : nat; e_w : nat;            (* self.pattern_shape *)
  e_pats : list row;               (* self.patterns, one flattened pattern per entry *)
  e_flat : bool;                   (* self.patterns is currently viewed as (n, h*w) instead of (n, h, w) *)
  e_phases : option (list nat);    (* self.phases *)
  e_ori : option (list row);       (* self.orientations *)
  e_coords : option (list row);    (* self.spatial_coords; None: the attribute does not exist (it is not set in __init__) *)
  e_finv : option (list row);      (* self.inv_f_matrix, rows of 9 *)
  e_raw : option (list (nat * (list (list row) * list row))); (* self.raw_indexing_results: phase -> ((n, k, 4), (n, k)) *)
  e_best : option row              (* self.best_metrics *)
}.
Definition e_n (s : exp_state) : nat := List.length (e_pats s).
(** cut a flat list into [n] rows of length [k] (Tensor.view) *)
Fixpoint chunks (n k : nat) (l : row) : list row := match n with O => [] | S m => firstn k l :: chunks m k (skipn k l) end.
(** experiment_pats.py:30-57 __init__; a tensor is its shape and its row-major data *)
Definition exp_init (shape : list nat) (data : row) : res exp_state :=
  match shape with
  | [h; w] => Ok (mkE [1%nat] h w (chunks 1 (h * w) data) false None None None None None None)
  | [n; h; w] => Ok (mkE [n] h w (chunks n (h * w) data) false None None None None None None)
  | [a; b; h; w] => Ok (mkE [a; b] h w (chunks (a * b) (h * w) data) false None None None None None None)
  | _ => Err ValueError
  end.

(** Python / torch index into a dimension of size [n] *)
Definition norm_idx (n : nat) (i : Z) : option nat :=
  if (Z.leb 0 i && Z.ltb i (Z.of_nat n))%bool then Some (Z.to_nat i)
  else if (Z.leb (- Z.of_nat n) i && Z.ltb i 0)%bool then Some (Z.to_nat (i + Z.of_nat n)) else None.
Fixpoint norm_all (n : nat) (l : list Z) : option (list nat) :=
  match l with
  | [] => Some []
  | i :: r => match norm_idx n i, norm_all n r with Some k, Some ks => Some (k :: ks) | _, _ => None end
  end.
Fixpoint upd {A} (i : nat) (x : A) (l : list A) : list A :=
  match l with [] => [] | y :: r => match i with O => x :: r | S j => y :: upd j x r end end.
(** t[idx] = vals (index_put_); writes happen in order, so the last of several writes to one position stays (torch leaves
    the order of duplicates open) *)
Fixpoint put {A} (idx : list nat) (vals : list A) (l : list A) : list A :=
  match idx, vals with i :: ir, v :: vr => put ir vr (upd i v l) | _, _ => l end.
(** t[idx] *)
Definition take {A} (d : A) (idx : list nat) (l : list A) : list A := map (fun i => nth i l d) idx.

(** shared part of experiment_pats.py:71-84 and 124-148 *)
Definition set_table (n : nat) (cur : option (list row)) (missing : err) (vals : list row) (idx : option (list Z)) : res (option (list row)) :=
  match idx with
  | None => if Nat.eqb (List.length vals) n then Ok (Some vals) else Err ValueError
  | Some is =>
      if Nat.eqb (List.length vals) (List.length is) then
        match cur with
        | None => Err missing
        | Some L => match norm_all (List.length L) is with None => Err IndexError | Some ks => Ok (Some (put ks vals L)) end
        end
      else Err ValueError
  end.
(** experiment_pats.py:59-84 set_spatial_coords *)
Definition set_spatial_coords (s : exp_state) (vals : list row) (idx : option (list Z)) : res exp_state :=
  match set_table (e_n s) (e_coords s) AttributeError vals idx with
  | Err e => Err e
  | Ok t => Ok (mkE (e_spatial s) (e_h s) (e_w s) (e_pats s) (e_flat s) (e_phases s) (e_ori s) t (e_finv s) (e_raw s) (e_best s))
  end.
(** experiment_pats.py:86-105 get_spatial_coords: line 100 reads an attribute that __init__ never creates *)
Definition get_table (cur : option (list row)) (missing : err) (idx : option (list Z)) : res (list row) :=
  match cur with
  | None => Err missing
  | Some L => match idx with
      | None => Ok L
      | Some is => match norm_all (List.length L) is with None => Err IndexError | Some ks => Ok (take [] ks L) end
      end
  end.
Definition get_spatial_coords (s : exp_state) (idx : option (list Z)) : res (list row) := get_table (e_coords s) AttributeError idx.
(** experiment_pats.py:107-148 set_orientations for an argument of shape [shape] (rank 2) with rows [vals] *)
Definition set_orientations (s : exp_state) (shape : list nat) (vals : list row) (idx : option (list Z)) : res exp_state :=
  match shape with
  | [m; c] =>
      match idx with
      | None => if negb (Nat.eqb m (e_n s)) then Err ValueError else if negb (Nat.eqb c 4) then Err ValueError
                else match set_table (e_n s) (e_ori s) TypeError vals None with Err e => Err e
                     | Ok t => Ok (mkE (e_spatial s) (e_h s) (e_w s) (e_pats s) (e_flat s) (e_phases s) t (e_coords s) (e_finv s) (e_raw s) (e_best s)) end
      | Some is => if negb (Nat.eqb m (List.length is)) then Err ValueError else if negb (Nat.eqb c 4) then Err ValueError
                else match set_table (e_n s) (e_ori s) TypeError vals (Some is) with Err e => Err e
                     | Ok t => Ok (mkE (e_spatial s) (e_h s) (e_w s) (e_pats s) (e_flat s) (e_phases s) t (e_coords s) (e_finv s) (e_raw s) (e_best s)) end
      end
  | _ => Err ValueError
  end.
(** experiment_pats.py:150-165 get_orientations; without indices an unset table is returned as None (here [Ok None]) *)
Definition get_orientations (s : exp_state) (idx : option (list Z)) : res (option (list row)) :=
  match idx with
  | None => Ok (e_ori s)
  | Some _ => match get_table (e_ori s) TypeError idx with Ok l => Ok (Some l) | Err e => Err e end
  end.
(** experiment_pats.py:167-202 set_inv_f_matrix.  Argument: None, or the sizes of dimension 0 and of the last two dimensions and
    the flattened rows; shape (n, 9) has last dimension 9.  (n, k, 9) with k > 1 passes the check and fails in view. *)
Definition identity9 : row := [1; 0; 0; 0; 1; 0; 0; 0; 1].
Definition set_inv_f_matrix (s : exp_state) (arg : option (list nat * list row)) : res exp_state :=
  let ok t := Ok (mkE (e_spatial s) (e_h s) (e_w s) (e_pats s) (e_flat s) (e_phases s) (e_ori s) (e_coords s) (Some t) (e_raw s) (e_best s)) in
  match arg with
  | None => ok (repeat identity9 (e_n s))
  | Some (shape, vals) =>
      match shape with
      | m :: _ => if negb (Nat.eqb m (e_n s)) then Err ValueError else
          match rev shape with
          | c :: b :: _ => if ((negb (Nat.eqb b 3) || negb (Nat.eqb c 3)) && negb (Nat.eqb c 9))%bool then Err ValueError
                           else if Nat.eqb (fold_right Nat.mul 1%nat shape) (9 * e_n s) then ok vals else Err RuntimeError
          | _ => Err IndexError
          end
      | [] => Err IndexError
      end
  end.
(** experiment_pats.py:204-221 get_inv_f_matrix *)
Definition get_inv_f_matrix (s : exp_state) (idx : option (list Z)) : res (list row) := get_table (e_finv s) ValueError idx.

(** experiment_pats.py:223-232 subtract_overall_background: torch.mean over patterns, per pixel *)
Definition suml (l : row) : R := fold_right Rplus 0 l.
Definition meanl (l : row) : R := suml l / INR (List.length l).
Definition with_pats (s : exp_state) (p : list row) (flat : bool) : exp_state :=
  mkE (e_spatial s) (e_h s) (e_w s) p flat (e_phases s) (e_ori s) (e_coords s) (e_finv s) (e_raw s) (e_best s).
Definition pixel_mean (pats : list row) (j : nat) : R := meanl (map (fun p => nth j p 0) pats).
Definition map_idx (f : nat -> R -> R) (p : row) : row := map (fun j => f j (nth j p 0)) (seq 0 (List.length p)).
Definition subtract_overall_background (s : exp_state) : exp_state :=
  with_pats s (map (map_idx (fun j x => x - pixel_mean (e_pats s) j)) (e_pats s)) (e_flat s).

(** torch.min / torch.max of a non-empty pattern *)
Definition minl (l : row) : R := match l with [] => 0 | x :: r => fold_right Rmin x r end.
Definition maxl (l : row) : R := match l with [] => 0 | x :: r => fold_right Rmax x r end.
(** torch.std, unbiased; a pattern with fewer than two pixels or constant gives a zero or undefined divisor: [None] *)
Definition varl (l : row) : R := suml (map (fun x => (x - meanl l)^2) l) / (INR (List.length l) - 1).
Definition minmax (p : row) : row := map (fun x => (x - minl p) / (1/10000 + maxl p - minl p)) p.
Definition zeromean (p : row) : row := map (fun x => x - meanl p) p.
Definition standard (p : row) : option row :=
  let z := zeromean p in
  if (Nat.leb (List.length p) 1) then None else if Req_EM_T (varl z) 0 then None else Some (map (fun x => x / sqrt (varl z)) z).
Fixpoint traverse {A B} (f : A -> option B) (l : list A) : option (list B) :=
  match l with [] => Some [] | x :: r => match f x, traverse f r with Some y, Some ys => Some (y :: ys) | _, _ => None end end.
Inductive norm_result := Normalised (s : exp_state) | HasNaN | NormError (e : err) (left_in : exp_state).
(** experiment_pats.py:256-283 normalize_per_pattern: line 268 flattens the stored tensor before the method name is checked *)
Definition normalize_per_pattern (s : exp_state) (norm_type : string) : norm_result :=
  if string_dec norm_type "minmax" then Normalised (with_pats s (map minmax (e_pats s)) false)
  else if string_dec norm_type "zeromean" then Normalised (with_pats s (map zeromean (e_pats s)) false)
  else if string_dec norm_type "standard" then match traverse standard (e_pats s) with Some p => Normalised (with_pats s p false) | None => HasNaN end
  else NormError ValueError (with_pats s (e_pats s) true).

(** avg_pool2d(pattern, b): output (i, j) is the mean of the b x b block; trailing rows and columns are dropped *)
Definition block (w b : nat) (p : row) (i j : nat) : row :=
  flat_map (fun di => map (fun dj => nth ((i * b + di) * w + (j * b + dj)) p 0) (seq 0 b)) (seq 0 b).
Definition avg_pool (h w b : nat) (p : row) : row :=
  flat_map (fun i => map (fun j => meanl (block w b p i j)) (seq 0 (w / b))) (seq 0 (h / b)).
(** experiment_pats.py:318-346 get_patterns: shape and patterns.  On a flattened tensor avg_pool2d sees a 2-D input and fails. *)
Definition get_patterns (s : exp_state) (idx : list Z) (binning : Z) : res (list nat * list row) :=
  match norm_all (e_n s) idx with
  | None => Err IndexError
  | Some ks =>
      let p := take [] ks (e_pats s) in
      if Z.ltb 1 binning then
        if e_flat s then Err RuntimeError else
        let b := Z.to_nat binning in
        if (Nat.ltb (e_h s) b || Nat.ltb (e_w s) b)%bool then Err RuntimeError
        else Ok ([List.length ks; e_h s / b; e_w s / b]%nat, map (avg_pool (e_h s) (e_w s) b) p)
      else Ok (if e_flat s then [List.length ks; e_h s * e_w s]%nat else [List.length ks; e_h s; e_w s], p)
  end.

(** experiment_pats.py:348-365 get_indices_per_phase: the index lists and the shape of each returned tensor after squeeze *)
Definition indices_of (ph : list nat) (i : nat) : list nat := filter (fun k => Nat.eqb (nth k ph 0%nat) i) (seq 0 (List.length ph)).
Definition squeezed (k : nat) : list nat := match k with 1%nat => [] | _ => [k] end.
Definition get_indices_per_phase (s : exp_state) : res (list (list nat * list nat)) :=
  match e_phases s with
  | None => Err ValueError
  | Some [] => Err RuntimeError
  | Some ph => Ok (map (fun i => let l := indices_of ph i in (squeezed (List.length l), l)) (seq 0 (S (list_max ph))))
  end.

(** experiment_pats.py:367-385 set_raw_indexing_results *)
Fixpoint dict_set {V} (k : nat) (v : V) (d : list (nat * V)) : list (nat * V) :=
  match d with [] => [(k, v)] | (k', v') :: r => if Nat.eqb k k' then (k, v) :: r else (k', v') :: dict_set k v r end.
Definition dict_get {V} (k : nat) (d : list (nat * V)) : option V := match find (fun kv => Nat.eqb k (fst kv)) d with Some kv => Some (snd kv) | None => None end.
Definition set_raw_indexing_results (s : exp_state) (q : list (list row)) (m : list row) (phase : nat) : exp_state :=
  let d := match e_raw s with None => [(phase, (q, m))] | Some d => dict_set phase (q, m) d end in
  mkE (e_spatial s) (e_h s) (e_w s) (e_pats s) (e_flat s) (e_phases s) (e_ori s) (e_coords s) (e_finv s) (Some d) (e_best s).
(** experiment_pats.py:387-451 combine_indexing_results.  Several phases: line 418 passes an int as the size of torch.full,
    a TypeError, for every input.  One phase: lines 450-451 read key 0. *)
Definition combine_indexing_results (s : exp_state) (higher_is_better : bool) : res exp_state :=
  match e_raw s with
  | None => Err ValueError
  | Some d =>
      if Nat.ltb 1 (List.length d) then Err TypeError
      else match d with
           | [] => Err IndexError
           | (key, _) :: _ =>
               if Nat.ltb 255 key then Err RuntimeError else
               match dict_get 0%nat d with
               | None => Err KeyError
               | Some (q, m) => Ok (mkE (e_spatial s) (e_h s) (e_w s) (e_pats s) (e_flat s) (Some (repeat key (e_n s))) (Some (map (fun r => nth 0 r []) q))
                                       (e_coords s) (e_finv s) (e_raw s) (Some (map (fun r => nth 0 r 0) m)))
               end
           end
  end.

(** ---- storage shared with the caller: patterns.view(...) at line 49 is the caller's memory; -= and /= write to it ---- *)
Record aliased := mkAl { caller : list row; own : option (list row) (* None: self.patterns is the caller's storage *) }.
Definition al_init (t : list row) : aliased := mkAl t None.
Definition al_view (a : aliased) : list row := match own a with None => caller a | Some p => p end.
Definition al_write (a : aliased) (p : list row) : aliased := match own a with None => mkAl p None | Some _ => mkAl (caller a) (Some p) end.
Inductive al_op := Background | MinMax | ZeroMean | Clahe (result : list row) | Get (idx : list Z).
(** lines 232, 272-275 write in place; line 249 (contrast_enhance_clahe) rebinds self.patterns to a new tensor; get_patterns copies *)
Definition al_step (a : aliased) (o : al_op) : aliased :=
  match o with
  | Background => al_write a (map (map_idx (fun j x => x - pixel_mean (al_view a) j)) (al_view a))
  | MinMax => al_write a (map minmax (al_view a))
  | ZeroMean => al_write a (map zeromean (al_view a))
  | Clahe r => mkAl (caller a) (Some r)
  | Get _ => a
  end.
