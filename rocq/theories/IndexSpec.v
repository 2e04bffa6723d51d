(** Specification of dictionary indexing: exhaustive search over centred patterns. *)
From Verif Require Import Base KnnModel KnnSpec ExpModel ExpSpec IndexModel.

Definition centred (p : list R) : list R := map (fun x => x - mean_rows p) p.
(** the pixels a mask keeps, in order *)
Definition visible (mask : option (list bool)) (p : list R) : list R :=
  match mask with None => p | Some m => map snd (filter fst (combine m p)) end.
Definition features (mask : option (list bool)) (p : list R) : list R := centred (visible mask p).
Definition mask_fits (mask : option (list bool)) (pixels : nat) : Prop := match mask with None => True | Some m => List.length m = pixels end.
Definition n_visible (mask : option (list bool)) (pixels : nat) : nat := match mask with None => pixels | Some m => List.length (filter (fun b => b) m) end.

(** [result] lists, best first, [k] different entries of the dictionary with their scores against [q]; no entry left out is nearer *)
Definition best_matches {A} (m : metric) (k F : nat) (q : list R) (dict : list (A * list R)) (a0 : A) (result : list (A * R)) : Prop :=
  exists idx : list nat,
    List.length idx = k /\ NoDup idx /\ (forall i, In i idx -> (i < List.length dict)%nat) /\
    result = map (fun i => (fst (nth i dict (a0, [])), metric_value m F q (snd (nth i dict (a0, []))))) idx /\
    (forall a b, (a < b < k)%nat -> at_least_as_near m F q (snd (nth (nth a idx 0%nat) dict (a0, []))) (snd (nth (nth b idx 0%nat) dict (a0, [])))) /\
    (forall i j, In i idx -> (j < List.length dict)%nat -> ~ In j idx -> at_least_as_near m F q (snd (nth i dict (a0, []))) (snd (nth j dict (a0, [])))).
(** every piece of [N] rows cut into pieces of [c] rows has at least [k] rows *)
Definition pieces_at_least (k N c : nat) : Prop := (k <= c)%nat /\ (N mod c = 0 \/ k <= N mod c)%nat.

(** ---- conditions of a run ---- *)
(** never indexed before, or indexed with a single phase *)
Definition fresh_or_single (s : exp_state) : Prop := e_raw s = None \/ exists v, e_raw s = Some [(0%nat, v)].
(** the experimental row that is compared: visible pixels, centred or not *)
Definition qvis (ctr : bool) mask (p : row) : row := if ctr then features mask p else visible mask p.
(** A known metric, the exact (not int8) search, at least one pattern and one orientation, chunk sizes >= 1 leaving no dictionary chunk with
    fewer than top_k rows; [pats] is what get_patterns returns for the whole scan at this binning; all patterns have [P] pixels. *)
Definition usable (o : options) (sim : ori -> row) (oris : list ori) (s : exp_state) (P : nat) (sh : list nat) (pats : list row) : Prop :=
  o_metric o <> OtherMetric /\ o_quant o = false /\ (Z.of_nat (List.length oris) < 2^31)%Z /\ oris <> [] /\
  (1 <= o_exp_chunk o)%nat /\ (1 <= e_n s)%nat /\ (1 <= o_dict_chunk o)%nat /\ pieces_at_least (o_topk o) (List.length oris) (o_dict_chunk o) /\
  get_patterns s (map Z.of_nat (seq 0 (e_n s))) (o_binning o) = Ok (sh, pats) /\
  (forall p, In p pats -> List.length p = P) /\ (forall q, In q oris -> List.length (sim q) = P) /\ mask_fits (o_mask o) P /\ fresh_or_single s.
(** is the mean of the experimental patterns subtracted?  (asked for, or patterns fed in chunks) *)
Definition centred_queries (o : options) (s : exp_state) : bool := if Nat.ltb (e_n s) (o_exp_chunk o) then o_subtract o else true.
(** the same options with another dictionary chunk size and number of matches *)
Definition with_chunks (o : options) (dc k : nat) : options := mkO (o_mask o) (o_subtract o) (o_exp_chunk o) dc (o_binning o) k (o_metric o) (o_quant o).
(** rows of an orthogonal F x F matrix given by its columns: the sum over eigenvectors of e[a] e[b] is 1 if a = b, else 0 *)
Definition orthogonal_rows (F : nat) (E : list row) : Prop :=
  List.length E = F /\ (forall e, In e E -> List.length e = F) /\
  forall a b, (a < F)%nat -> (b < F)%nat -> coord_sum F (fun c => nth a (nth c E []) 0 * nth b (nth c E []) 0) = if Nat.eqb a b then 1 else 0.
(** coordinates of p along the chosen eigenvectors *)
Definition proj_row (E : list row) (cols : list nat) (p : row) : row := map (fun c => dotl p (nth c E [])) cols.
(** the same conditions for PCA indexing; [sim] yields the visible pixels only and [E] has one eigenvector per visible pixel *)
Definition pca_usable (o : options) (E : list row) (sim : ori -> row) (oris : list ori) (s : exp_state) (P : nat) (sh : list nat) (pats : list row) : Prop :=
  o_metric o <> OtherMetric /\ o_quant o = false /\ (Z.of_nat (List.length oris) < 2^31)%Z /\ oris <> [] /\
  (1 <= o_exp_chunk o)%nat /\ (1 <= e_n s)%nat /\ (1 <= o_dict_chunk o)%nat /\ pieces_at_least (o_topk o) (List.length oris) (o_dict_chunk o) /\
  get_patterns s (map Z.of_nat (seq 0 (e_n s))) (o_binning o) = Ok (sh, pats) /\
  (forall p, In p pats -> List.length p = P) /\ mask_fits (o_mask o) P /\ fresh_or_single s /\
  (o_binning o <= 1)%Z /\ List.length E = n_visible (o_mask o) P /\ (forall q, In q oris -> List.length (sim q) = n_visible (o_mask o) P).

(** ---- small concrete inputs ---- *)
Definition two_oris : list ori := [[1; 0; 0; 0]; [0; 1; 0; 0]].
(** pattern x*d1 + y*d2 for the orientation (x, y, _, _) *)
Definition blend (d1 d2 : row) (q : ori) : row := map (fun p => nth 0 q 0 * fst p + nth 1 q 0 * snd p) (combine d1 d2).
Definition one_pattern (p : row) : exp_state := mkE [1%nat] 1 (List.length p) [p] false None None None None None None.
Definition opts (sub : bool) (ec dc k : nat) (m : metric) : options := mkO None sub ec dc 1 k m false.
