(** Model of ebsdtorch/utils/knn.py (ChunkedKNN).
    Vectors are lists of reals (dtype casts, lines 170/195/236, are the identity here).  torch.topk is an oracle [tk]
    choosing positions; one oracle may answer differently at every call and row (arguments call, row, phase), subject
    only to torch's contract (KnnSpec.topk_contract).  The int8 quantised product (lines 52-77) is an arbitrary
    function [qdot] of the number of the query call, the query and the data row: the quantisation steps may depend on the whole data
    chunk and query batch of that call.  int64 indices are unbounded integers; int32 storage wraps. *)
From Verif Require Import Base.

(** distances: a finite real or the initial -inf / +inf fill (knn.py:153-158) *)
Inductive ext := NInf | Fin (r : R) | PInf.
Notation entry := (ext * Z)%type.
Inductive metric := Angular | Euclidean | Manhattan | OtherMetric.
Inductive kerr := DataNotSet | TopkOutOfRange | CatMismatch | NotImplemented.
Inductive kres (A : Type) := KOk (a : A) | KErr (e : kerr).
Arguments KOk {A}. Arguments KErr {A}.

Fixpoint dotl (u v : list R) : R := match u, v with a :: u', b :: v' => a * b + dotl u' v' | _, _ => 0 end.
Fixpoint manl (u v : list R) : R := match u, v with a :: u', b :: v' => Rabs (a - b) + manl u' v' | _, _ => 0 end.
(** knn.py:80-103 knn_batch: the entry of [dist] for one query and one data row *)
Definition score (m : metric) (q d : list R) : option R :=
  match m with
  | Angular => Some (dotl q d)
  | Euclidean => Some (dotl q q + dotl d d - 2 * dotl q d)
  | Manhattan => Some (manl q d)
  | OtherMetric => None
  end.
(** knn.py:84: lgst, and :148 self.big_better *)
Definition bigger_better (m : metric) : bool := match m with Angular => true | _ => false end.

(** torch dtype of the stored indices (knn.py:149) and the conversion done when assigning into such a tensor *)
Inductive idx_dtype := I64 | I32.
Definition wrap32 (z : Z) : Z := ((z + 2^31) mod 2^32 - 2^31)%Z.
Definition store_idx (t : idx_dtype) (z : Z) : Z := match t with I64 => z | I32 => wrap32 z end.

Record kstate := mkK {
  k_topk : nat; k_metric : metric;
  k_quant : bool;               (* self.quantized and match_device.type == "cpu" *)
  k_dtype : idx_dtype;          (* dtype of self.knn_indices *)
  k_rows : list (list entry);   (* knn_distances / knn_indices, one list of topk entries per query *)
  k_data : option (list (list R)); k_start : nat; k_end : nat;
  k_calls : nat }.

(** knn.py:107-161 __init__; [garbage] is the uninitialised content of torch.empty (line 150). *)
Definition k_init (data_size : Z) (query_size topk : nat) (m : metric) (quant : bool) (garbage : nat -> nat -> Z) : kstate :=
  let s := if bigger_better m then NInf else PInf in
  mkK topk m quant (if (data_size <? 2^31)%Z then I64 else I32)
      (map (fun i => map (fun j => (s, garbage i j)) (seq 0 topk)) (seq 0 query_size)) None 0 0 0.

(** knn.py:163-180 set_data_chunk *)
Definition set_data_chunk (st : kstate) (c : list (list R)) : kstate :=
  let e := (k_end st + length c)%nat in
  mkK (k_topk st) (k_metric st) (k_quant st) (k_dtype st) (k_rows st) (Some c) (e - length c) e (k_calls st).

Section Query.
Variable qdot : nat -> list R -> list R -> R.
(** tk call row phase largest sorted k values = chosen positions *)
Variable tk : nat -> nat -> nat -> bool -> bool -> nat -> list ext -> list nat.

Definition gather {A} (d : A) (l : list A) (I : list nat) : list A := map (fun i => nth i l d) I.
Definition e0 : entry := (PInf, 0%Z).

(** scores of one query against the chunk: quantised product (knn.py:70-72) or knn_batch; [None]: NotImplementedError *)
Fixpoint sequence_r (l : list (option R)) : option (list R) :=
  match l with [] => Some [] | None :: _ => None
  | Some x :: r => match sequence_r r with Some r' => Some (x :: r') | None => None end end.
Definition scores (st : kstate) (c : list (list R)) (q : list R) : option (list R) :=
  if k_quant st then Some (map (qdot (k_calls st) q) c) else
  match k_metric st with OtherMetric => None | _ => sequence_r (map (score (k_metric st) q) c) end.
(** largest= flag of the per-chunk topk: True on the quantised path (line 71), lgst otherwise (line 84/101) *)
Definition chunk_largest (st : kstate) : bool := if k_quant st then true else bigger_better (k_metric st).

(** chunk top-k with global indices (knn.py:197-207 / 238-247) for one query row *)
Definition chunk_topk (st : kstate) (row : nat) (sc : list R) : list entry :=
  let vals := map Fin sc in
  let I := tk (k_calls st) row 0 (chunk_largest st) false (k_topk st) vals in
  map (fun i => (nth i vals PInf, (Z.of_nat i + Z.of_nat (k_start st))%Z)) I.
(** merge (knn.py:209-217 / 250-266) for one query row *)
Definition merge_row (st : kstate) (row : nat) (old new : list entry) : list entry :=
  let merged := old ++ new in
  let I := tk (k_calls st) row 1 (bigger_better (k_metric st)) false (k_topk st) (map fst merged) in
  gather e0 merged I.

(** Row by row over the queries.  Simplification: with an empty query batch the metric and chunk-size checks are skipped. *)
Fixpoint step_rows (st : kstate) (c : list (list R)) (row : nat) (Q : list (list R)) (old : list (list entry))
  : kres (list (list entry)) :=
  match Q, old with
  | [], [] => KOk []
  | q :: Q', o :: old' =>
      match scores st c q with
      | None => KErr NotImplemented
      | Some sc =>
          if Nat.ltb (length sc) (k_topk st) then KErr TopkOutOfRange else
          match step_rows st c (S row) Q' old' with
          | KErr e => KErr e
          | KOk r => KOk (merge_row st row o (chunk_topk st row sc) :: r)
          end
      end
  | _, _ => KErr CatMismatch
  end.

Definition with_rows (st : kstate) (dt : idx_dtype) (rows : list (list entry)) : kstate :=
  mkK (k_topk st) (k_metric st) (k_quant st) dt rows (k_data st) (k_start st) (k_end st) (S (k_calls st)).

(** knn.py:182-217 query_all.  torch.cat of an int32 and an int64 tensor promotes to int64 (line 211). *)
Definition query_all (st : kstate) (Q : list (list R)) : kres kstate :=
  match k_data st with
  | None => KErr DataNotSet
  | Some c =>
      match step_rows st c 0 Q (k_rows st) with
      | KErr e => KErr e
      | KOk r => KOk (with_rows st I64 r)
      end
  end.
(** knn.py:219-266 query_chunk with query_start >= 0; the slice [start:start+n] is clipped as in Python, and the
    assignment back (lines 261-266) converts to the dtype of knn_indices. *)
Definition query_chunk (st : kstate) (Q : list (list R)) (start : nat) : kres kstate :=
  match k_data st with
  | None => KErr DataNotSet
  | Some c =>
      let n := length Q in
      match step_rows st c start Q (firstn n (skipn start (k_rows st))) with
      | KErr e => KErr e
      | KOk r =>
          let r' := map (map (fun p => (fst p, store_idx (k_dtype st) (snd p)))) r in
          KOk (with_rows st (k_dtype st) (firstn start (k_rows st) ++ r' ++ skipn (start + n) (k_rows st)))
      end
  end.
(** knn.py:268-290 retrieve_topk *)
Definition retrieve_topk (st : kstate) : list (list entry) :=
  map (fun p : nat * list entry => let (row, l) := p in
         gather e0 l (tk (k_calls st) row 2 (bigger_better (k_metric st)) true (k_topk st) (map fst l)))
      (combine (seq 0 (length (k_rows st))) (k_rows st)).

(** call sequences *)
Inductive kop := SetData (c : list (list R)) | QueryAll (Q : list (list R)) | QueryChunk (Q : list (list R)) (start : nat).
Definition k_step (st : kstate) (o : kop) : kres kstate :=
  match o with
  | SetData c => KOk (set_data_chunk st c)
  | QueryAll Q => query_all st Q
  | QueryChunk Q s => query_chunk st Q s
  end.
Fixpoint k_run (st : kstate) (l : list kop) : kres kstate :=
  match l with
  | [] => KOk st
  | o :: l' => match k_step st o with KErr e => KErr e | KOk st' => k_run st' l' end
  end.
End Query.
