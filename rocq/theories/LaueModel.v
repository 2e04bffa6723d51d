(** Model of ebsdtorch/s2_and_so3/laue_generators.py, laue_fz_ori.py and laue_fz_misori.py.
    One batch element at a time; the Laue-group axis is a list. *)
From Verif Require Import Base QuatModel.

(** Python / TorchScript list indexing: negative indices count from the end, otherwise IndexError ([None]). *)
Definition py_index {A} (l : list A) (i : Z) : option A :=
  let n := Z.of_nat (length l) in
  if (0 <=? i)%Z && (i <? n)%Z then nth_error l (Z.to_nat i)
  else if (- n <=? i)%Z && (i <? 0)%Z then nth_error l (Z.to_nat (n + i))
  else None.

(** laue_generators.py:14-50 get_laue_mult *)
Definition laue_mults : list nat := [2; 4; 8; 8; 16; 6; 12; 12; 24; 24; 48]%nat.
Definition get_laue_mult (id : Z) : option nat := py_index laue_mults (id - 1).

(** laue_generators.py:84-86 *)
Definition R2 : R := 1 / sqrt 2.
Definition R3 : R := sqrt 3 / 2.

(** laue_generators.py:88-116 *)
Definition LAUE_O : list quat := [
  mkQ 1 0 0 0; mkQ 0 0 0 1; mkQ 0 1 0 0; mkQ 0 0 1 0;
  mkQ R2 0 0 R2; mkQ R2 0 0 (-R2); mkQ 0 R2 R2 0; mkQ 0 (-R2) R2 0;
  mkQ (1/2) (1/2) (-1/2) (1/2);
  mkQ (1/2) (1/2) (1/2) (-1/2);
  mkQ (1/2) (1/2) (-1/2) (-1/2);
  mkQ (1/2) (-1/2) (-1/2) (-1/2);
  mkQ (1/2) (-1/2) (1/2) (1/2);
  mkQ (1/2) (-1/2) (1/2) (-1/2);
  mkQ (1/2) (-1/2) (-1/2) (1/2);
  mkQ (1/2) (1/2) (1/2) (1/2);
  mkQ R2 R2 0 0; mkQ R2 (-R2) 0 0; mkQ R2 0 R2 0; mkQ R2 0 (-R2) 0;
  mkQ 0 R2 0 R2; mkQ 0 (-R2) 0 R2; mkQ 0 0 R2 R2; mkQ 0 0 (-R2) R2 ].
(** laue_generators.py:117-133 *)
Definition LAUE_T : list quat := [
  mkQ 1 0 0 0; mkQ 0 0 0 1; mkQ 0 1 0 0; mkQ 0 0 1 0;
  mkQ (1/2) (1/2) (-1/2) (1/2);
  mkQ (1/2) (1/2) (1/2) (-1/2);
  mkQ (1/2) (1/2) (-1/2) (-1/2);
  mkQ (1/2) (-1/2) (-1/2) (-1/2);
  mkQ (1/2) (-1/2) (1/2) (1/2);
  mkQ (1/2) (-1/2) (1/2) (-1/2);
  mkQ (1/2) (-1/2) (-1/2) (1/2);
  mkQ (1/2) (1/2) (1/2) (1/2) ].
(** laue_generators.py:135-151 *)
Definition LAUE_D6 : list quat := [
  mkQ 1 0 0 0; mkQ (1/2) 0 0 R3; mkQ (1/2) 0 0 (-R3); mkQ 0 0 0 1; mkQ R3 0 0 (1/2); mkQ R3 0 0 (-1/2);
  mkQ 0 1 0 0; mkQ 0 (-1/2) R3 0; mkQ 0 (1/2) R3 0; mkQ 0 R3 (1/2) 0; mkQ 0 (-R3) (1/2) 0; mkQ 0 0 1 0 ].
(** laue_generators.py:153-163 *)
Definition LAUE_C6 : list quat := [
  mkQ 1 0 0 0; mkQ (1/2) 0 0 R3; mkQ (1/2) 0 0 (-R3); mkQ 0 0 0 1; mkQ R3 0 0 (1/2); mkQ R3 0 0 (-1/2) ].
(** laue_generators.py:165-175 *)
Definition LAUE_D3 : list quat := [
  mkQ 1 0 0 0; mkQ (1/2) 0 0 R3; mkQ (1/2) 0 0 (-R3); mkQ 0 1 0 0; mkQ 0 (-1/2) R3 0; mkQ 0 (1/2) R3 0 ].
(** laue_generators.py:177-184 *)
Definition LAUE_C3 : list quat := [ mkQ 1 0 0 0; mkQ (1/2) 0 0 R3; mkQ (1/2) 0 0 (-R3) ].
(** laue_generators.py:186-198 *)
Definition LAUE_D4 : list quat := [
  mkQ 1 0 0 0; mkQ 0 0 0 1; mkQ 0 1 0 0; mkQ 0 0 1 0;
  mkQ R2 0 0 R2; mkQ R2 0 0 (-R2); mkQ 0 R2 R2 0; mkQ 0 (-R2) R2 0 ].
(** laue_generators.py:200-208 *)
Definition LAUE_C4 : list quat := [ mkQ 1 0 0 0; mkQ 0 0 0 1; mkQ R2 0 0 R2; mkQ R2 0 0 (-R2) ].
(** laue_generators.py:210-218 *)
Definition LAUE_D2 : list quat := [ mkQ 1 0 0 0; mkQ 0 0 0 1; mkQ 0 1 0 0; mkQ 0 0 1 0 ].
(** laue_generators.py:220-226 *)
Definition LAUE_C2 : list quat := [ mkQ 1 0 0 0; mkQ 0 0 0 1 ].
(** laue_generators.py:228-233 *)
Definition LAUE_C1 : list quat := [ mkQ 1 0 0 0 ].
(** laue_generators.py:235-249 laue_elements *)
Definition LAUE_GROUPS : list (list quat) :=
  [LAUE_C1; LAUE_C2; LAUE_D2; LAUE_C4; LAUE_D4; LAUE_C3; LAUE_D3; LAUE_C6; LAUE_D6; LAUE_T; LAUE_O].
Definition laue_elements (id : Z) : option (list quat) := py_index LAUE_GROUPS (id - 1).

(** torch.argmax: index of the first maximal entry. *)
Fixpoint argmax_from (best : R) (bi i : nat) (l : list R) : nat :=
  match l with
  | [] => bi
  | x :: r => if Rlt_dec best x then argmax_from x i (S i) r else argmax_from best bi (S i) r
  end.
Definition argmax (l : list R) : nat :=
  match l with [] => 0%nat | x :: r => argmax_from x 0 1 r end.
(** torch.max(...).values along a non-empty axis. *)
Definition rmax_list (l : list R) : R := match l with [] => 0 | x :: r => fold_left Rmax r x end.

(** laue_fz_ori.py:35-81 ori_to_fz_laue (group list [G] = laue_elements(laue_id)).
    Lines 67/72: the group tensor is reshaped to (card, 4) with card = get_laue_mult(laue_id)//2, an error if the
    table had another number of rows. *)
Definition to_fz_group (G : list quat) (q : quat) : quat :=
  qu_prod q (nth (argmax (map (qu_prod_pos_real q) G)) G qid).
Definition checked_group (id : Z) : option (list quat) :=
  match laue_elements id, get_laue_mult id with
  | Some G, Some m => if Nat.eqb (length G) (m / 2) then Some G else None
  | _, _ => None
  end.
Definition ori_to_fz_laue (q : quat) (id : Z) : option quat :=
  match checked_group id with Some G => Some (to_fz_group G q) | None => None end.

(** laue_fz_ori.py:84-105 ori_equiv_laue *)
Definition ori_equiv_laue (q : quat) (id : Z) : option (list quat) :=
  match laue_elements id with Some G => Some (map (qu_prod q) G) | None => None end.

(** laue_fz_ori.py:108-141 ori_in_fz_laue_brute *)
Definition in_fz_group (G : list quat) (q : quat) : bool :=
  Nat.eqb (argmax (map (fun g => Rabs (qu_prod_pos_real q g)) G)) 0.
Definition ori_in_fz_laue_brute (q : quat) (id : Z) : option bool :=
  match checked_group id with Some G => Some (in_fz_group G q) | None => None end.

(** laue_fz_ori.py:144-239 ori_in_fz_laue; [None] is the ValueError of line 239. *)
Definition ori_in_fz_laue (q : quat) (id : Z) : option bool :=
  let w := qw q in let ax := Rabs (qx q) in let ay := Rabs (qy q) in let az := Rabs (qz q) in
  if (id =? 11)%Z then
    Some (Rleb (Rmax (Rmax ax ay) az) (w * (sqrt 2 - 1)) && Rleb (ax + ay + az) w)
  else if (id =? 10)%Z then Some (Rleb (ax + ay + az) w)
  else if (id =? 9)%Z then
    let cond := Rltb ay ax in
    let m := if cond then ax else ay in
    let n := if cond then ay else ax in
    let rot := if Rltb ((2 + sqrt 3) * n) m then m else (sqrt 3 / 2) * m + (1/2) * n in
    Some (Rleb az ((2 - sqrt 3) * w) && Rleb rot w)
  else if (id =? 8)%Z then Some (Rleb az ((2 - sqrt 3) * w))
  else if (id =? 7)%Z then
    let rot := if Rleb (ay * sqrt 3) ax then ax else (sqrt 3 / 2) * ay + (1/2) * ax in
    Some (Rleb az ((1 / sqrt 3) * w) && Rleb rot w)
  else if (id =? 6)%Z then Some (Rleb az ((1 / sqrt 3) * w))
  else if (id =? 5)%Z then
    let cond := Rltb ay ax in
    let m := if cond then ax else ay in
    let n := if cond then ay else ax in
    let rot := if Rltb ((sqrt 2 + 1) * n) m then m else (1 / sqrt 2) * m + (1 / sqrt 2) * n in
    Some (Rleb az ((sqrt 2 - 1) * w) && Rleb rot w)
  else if (id =? 4)%Z then Some (Rleb az ((sqrt 2 - 1) * w))
  else if (id =? 3)%Z then Some (Rleb (Rmax (Rmax ax ay) az) w)
  else if (id =? 2)%Z then Some (Rleb az w)
  else if (id =? 1)%Z then Some true
  else None.

(** laue_fz_ori.py:320-344 ori_angle_laue *)
Definition ori_angle_laue (q1 q2 : quat) (id : Z) : option R :=
  match ori_to_fz_laue (qu_prod q1 (qu_conj q2)) id with
  | Some q => Some (qu_angle (qu_norm_std q))
  | None => None
  end.

(** laue_fz_ori.py:388-396 and laue_fz_misori.py:55-61,124-130: the (|G2|, |G1|) table of equivalents
    g2 * (m * g1), flattened row-major. *)
Definition double_coset (G2 G1 : list quat) (m : quat) : list quat :=
  flat_map (fun g2 => map (fun g1 => qu_prod g2 (qu_prod m g1)) G1) G2.
Definition pick_disori (G2 G1 : list quat) (m : quat) : quat :=
  let eqs := double_coset G2 G1 m in nth (argmax (map (fun q => Rabs (qw q)) eqs)) eqs qid.

(** laue_fz_misori.py:30-76 misori_to_fz_laue *)
Definition misori_to_fz_laue (q : quat) (id1 id2 : Z) : option quat :=
  match laue_elements id1, laue_elements id2 with
  | Some G1, Some G2 => Some (pick_disori G2 G1 q)
  | _, _ => None
  end.
(** laue_fz_ori.py:347-411 disorientation; laue_fz_misori.py:79-145 disorientation_naive is the same code.
    The equal-shape check is part of the batch wrapper below. *)
Definition disorientation (q1 q2 : quat) (id1 id2 : Z) : option quat :=
  let m := qu_prod q1 (qu_conj q2) in
  match laue_elements id1 with
  | None => None
  | Some G1 =>
      match (if (id1 =? id2)%Z then Some G1 else laue_elements id2) with
      | None => None
      | Some G2 => Some (pick_disori G2 G1 m)
      end
  end.
(** laue_fz_ori.py:414-469 disori_angle_laue; laue_fz_misori.py:148-203 is the same code. *)
Definition disori_cos (G2 G1 : list quat) (m : quat) : R :=
  rmax_list (flat_map (fun g2 => map (fun g1 => qu_triple_prod_pos_real g2 m g1) G1) G2).
Definition disori_angle_laue (q1 q2 : quat) (id1 id2 : Z) : option R :=
  let m := qu_prod q1 (qu_conj q2) in
  match laue_elements id1 with
  | None => None
  | Some G1 =>
      match (if (id1 =? id2)%Z then Some G1 else laue_elements id2) with
      | None => None
      | Some G2 => Some (2 * acos (disori_cos G2 G1 m))
      end
  end.
(** Batch wrapper with the shape check of laue_fz_ori.py:368-371 / 435-438 (shapes (n,4)). *)
Fixpoint sequence {A} (l : list (option A)) : option (list A) :=
  match l with
  | [] => Some []
  | None :: _ => None
  | Some x :: r => match sequence r with Some r' => Some (x :: r') | None => None end
  end.
Inductive outcome (A : Type) := Returns (a : A) | ValueError | IndexError.
Arguments Returns {A}. Arguments ValueError {A}. Arguments IndexError {A}.
Definition disori_angle_batch (l1 l2 : list quat) (id1 id2 : Z) : outcome (list R) :=
  if Nat.eqb (length l1) (length l2) then
    match sequence (map (fun p => disori_angle_laue (fst p) (snd p) id1 id2) (combine l1 l2)) with
    | Some r => Returns r
    | None => IndexError
    end
  else ValueError.

(** laue_fz_ori.py:506-513 / 550-557: rejection sampling, then an arbitrary permutation [perm]. *)
Definition sample_reject (cands : list quat) (id : Z) : list quat :=
  filter (fun q => match ori_in_fz_laue q id with Some b => b | None => false end) cands.
