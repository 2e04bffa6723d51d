(** Specification vocabulary for k-nearest-neighbour search. *)
From Verif Require Import Base KnnModel.

Definition ext_lt (a b : ext) : Prop :=
  match a, b with
  | NInf, NInf => False | NInf, _ => True
  | Fin x, Fin y => x < y | Fin _, PInf => True
  | _, _ => False
  end.
(** a is strictly better than b *)
Definition better (largest : bool) (a b : ext) : Prop := if largest then ext_lt b a else ext_lt a b.

(** [I] lists k distinct positions of [l] and no other position holds a better value than a listed one. *)
Definition selects (largest : bool) (k : nat) (l : list ext) (I : list nat) : Prop :=
  length I = k /\ NoDup I /\ (forall i, In i I -> (i < length l)%nat) /\
  (forall i j, In i I -> (j < length l)%nat -> ~ In j I -> ~ better largest (nth j l PInf) (nth i l PInf)).
(** best first *)
Definition best_first (largest : bool) (v : list ext) : Prop :=
  forall i j, (i < j)%nat -> (j < length v)%nat -> ~ better largest (nth j v PInf) (nth i v PInf).
(** torch.topk: defined whenever k <= length *)
Definition topk_contract (tk : nat -> nat -> nat -> bool -> bool -> nat -> list ext -> list nat) : Prop :=
  forall call row phase largest sorted k l, (k <= length l)%nat ->
    let I := tk call row phase largest sorted k l in
    selects largest k l I /\ (sorted = true -> best_first largest (map (fun i => nth i l PInf) I)).

(** The answer for one query against the whole data set [D]: k distinct row numbers of D with their scores, best first,
    no other row better. *)
Definition exact_knn (m : metric) (k : nat) (q : list R) (D : list (list R)) (ans : list entry) : Prop :=
  length ans = k /\ NoDup (map snd ans) /\
  (forall e, In e ans -> exists i s, (i < length D)%nat /\ snd e = Z.of_nat i /\ score m q (nth i D []) = Some s /\ fst e = Fin s) /\
  (forall e j s, In e ans -> (j < length D)%nat -> ~ In (Z.of_nat j) (map snd ans) -> score m q (nth j D []) = Some s ->
      ~ better (bigger_better m) (Fin s) (fst e)) /\
  best_first (bigger_better m) (map fst ans).

(** r consists of k entries of l at distinct positions, none of the entries left out being better. *)
Definition sel (big : bool) (k : nat) (l r : list entry) : Prop :=
  exists I, selects big k (map fst l) I /\ r = gather (PInf, 0%Z) l I.

Definition score0 (m : metric) (q d : list R) : R := match score m q d with Some x => x | None => 0 end.
Definition score_list (m : metric) (q : list R) (c : list (list R)) : list R := map (score0 m q) c.
(** (score, global row number) of every row of a chunk whose first row has global number [start] *)
Definition cands (sc : list R) (start : nat) : list entry :=
  map (fun p => (Fin (snd p), Z.of_nat (fst p))) (combine (seq start (length sc)) sc).
(** Everything query row [i] has been compared with during a call sequence, in order. *)
Fixpoint searched (m : metric) (i : nat) (ops : list kop) (cur : option (list (list R))) (start e : nat) : list entry :=
  match ops with
  | [] => []
  | SetData c :: r => searched m i r (Some c) e (e + length c)
  | QueryAll Q :: r =>
      (match cur with Some c => cands (score_list m (nth i Q []) c) start | None => [] end) ++ searched m i r cur start e
  | QueryChunk Q s :: r =>
      (match cur with
       | Some c => if (s <=? i)%nat && (i <? s + length Q)%nat then cands (score_list m (nth (i - s) Q []) c) start else []
       | None => [] end) ++ searched m i r cur start e
  end.

(** The two ways the package drives the search: every data chunk against all queries at once, or against the queries in
    consecutive pieces. *)
Definition history_all (chunks : list (list (list R))) (Q : list (list R)) : list kop :=
  flat_map (fun c => [SetData c; QueryAll Q]) chunks.
Fixpoint pieces (s : nat) (parts : list (list (list R))) : list kop :=
  match parts with [] => [] | P :: r => QueryChunk P s :: pieces (s + length P) r end.
Definition history_pieces (steps : list (list (list R) * list (list (list R)))) : list kop :=
  flat_map (fun cp => SetData (fst cp) :: pieces 0 (snd cp)) steps.

(** what the three metrics mean, in coordinates, for vectors of n entries *)
Definition coord_sum (n : nat) (f : nat -> R) : R := fold_right Rplus 0 (map f (seq 0 n)).
Definition inner_product (n : nat) (q d : list R) : R := coord_sum n (fun t => nth t q 0 * nth t d 0).
Definition squared_distance (n : nat) (q d : list R) : R := coord_sum n (fun t => (nth t q 0 - nth t d 0)^2).
Definition absolute_distance (n : nat) (q d : list R) : R := coord_sum n (fun t => Rabs (nth t q 0 - nth t d 0)).
(** data row [d] serves query [q] at least as well as [d'] *)
Definition at_least_as_near (m : metric) (n : nat) (q d d' : list R) : Prop :=
  match m with
  | Angular => inner_product n q d' <= inner_product n q d
  | Euclidean => squared_distance n q d <= squared_distance n q d'
  | Manhattan => absolute_distance n q d <= absolute_distance n q d'
  | OtherMetric => True
  end.
Definition metric_value (m : metric) (n : nat) (q d : list R) : R :=
  match m with Angular => inner_product n q d | Euclidean => squared_distance n q d | Manhattan => absolute_distance n q d | OtherMetric => 0 end.

(** The answer for one query when inner products (vectors of n entries) are only known up to [eps]: k distinct row numbers of D, each with
    a score within eps of its inner product with the query; no row left out, and no row listed later, has an inner product more than
    2 eps above a listed one. *)
Definition near_knn (n : nat) (eps : R) (k : nat) (q : list R) (D : list (list R)) (ans : list entry) : Prop :=
  length ans = k /\ NoDup (map snd ans) /\
  (forall e, In e ans -> exists j s, (j < length D)%nat /\ snd e = Z.of_nat j /\ fst e = Fin s /\ Rabs (s - inner_product n q (nth j D [])) <= eps) /\
  (forall a b, In (Z.of_nat a) (map snd ans) -> (b < length D)%nat -> ~ In (Z.of_nat b) (map snd ans) ->
     inner_product n q (nth b D []) <= inner_product n q (nth a D []) + 2 * eps) /\
  (forall x y a b, (x < y < length ans)%nat -> snd (nth x ans (PInf, 0%Z)) = Z.of_nat a -> snd (nth y ans (PInf, 0%Z)) = Z.of_nat b ->
     inner_product n q (nth b D []) <= inner_product n q (nth a D []) + 2 * eps).
