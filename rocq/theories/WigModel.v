(** Model of ebsdtorch/harmonics/wigner_d_logspace.py, lines 1-1040 (the weights of lines 1042-1330 are in ShtModel).
    Floating point numbers are exact reals extended with the two infinities and NaN (type [fl]); signed zeros are not
    distinguished.  Integers are unbounded ([index32] below is the int32 version with wrap-around).
    Tensors are lists, a table under construction is a map from flat positions to (log-magnitude, sign) cells; reading or
    writing outside the table, which torch would reject, makes the whole computation return None. *)
From Verif Require Import Base.
Local Open Scope R_scope.

(** * IEEE arithmetic with exact reals *)
Inductive fl := F (r : R) | PInf | NInf | NaN.
Definition fneg (a : fl) : fl := match a with F x => F (- x) | PInf => NInf | NInf => PInf | NaN => NaN end.
Definition fadd (a b : fl) : fl :=
  match a, b with
  | NaN, _ | _, NaN => NaN
  | F x, F y => F (x + y)
  | PInf, NInf | NInf, PInf => NaN
  | PInf, _ | _, PInf => PInf
  | NInf, _ | _, NInf => NInf
  end.
Definition fsub a b := fadd a (fneg b).
(** sign of a real times an infinity *)
Definition rinf (x : R) (pos : bool) : fl :=
  if Rlt_dec 0 x then (if pos then PInf else NInf) else if Rlt_dec x 0 then (if pos then NInf else PInf) else NaN.
Definition fmul (a b : fl) : fl :=
  match a, b with
  | NaN, _ | _, NaN => NaN
  | F x, F y => F (x * y)
  | F x, PInf | PInf, F x => rinf x true
  | F x, NInf | NInf, F x => rinf x false
  | PInf, PInf | NInf, NInf => PInf
  | PInf, NInf | NInf, PInf => NInf
  end.
Definition flog (a : fl) : fl :=
  match a with
  | F x => if Rlt_dec 0 x then F (ln x) else if Rlt_dec x 0 then NaN else NInf
  | PInf => PInf | NInf => NaN | NaN => NaN
  end.
Definition fexp (a : fl) : fl := match a with F x => F (exp x) | PInf => PInf | NInf => F 0 | NaN => NaN end.
Definition fabs (a : fl) : fl := match a with F x => F (Rabs x) | PInf | NInf => PInf | NaN => NaN end.
(** comparison x >= 0, false for NaN *)
Definition fge0 (a : fl) : bool :=
  match a with F x => if Rle_dec 0 x then true else false | PInf => true | _ => false end.
(** torch.max of two tensors propagates NaN *)
Definition fmax (a b : fl) : fl :=
  match a, b with
  | NaN, _ | _, NaN => NaN
  | F x, F y => F (Rmax x y)
  | PInf, _ | _, PInf => PInf
  | NInf, y => y
  | x, NInf => x
  end.
Definition fisinf (a : fl) : bool := match a with PInf | NInf => true | _ => false end.
(** 2 * sign - 1 *)
Definition sgnf (s : bool) : fl := F (2 * (if s then 1 else 0) - 1).

(** wigner_d_logspace.py:38-88 signedlogsumexp, one element *)
Definition signedlogsumexp (ln_a ln_b : fl) (sign_a sign_b : bool) : fl * bool :=
  let max_ln := fmax ln_a ln_b in
  let ln_a_shifted := if negb (fisinf ln_a) then fsub ln_a max_ln else ln_a in
  let ln_b_shifted := if negb (fisinf ln_b) then fsub ln_b max_ln else ln_b in
  let exp_a := fexp ln_a_shifted in
  let exp_b := fexp ln_b_shifted in
  let exp_sum := fadd (fmul exp_a (sgnf sign_a)) (fmul exp_b (sgnf sign_b)) in
  (fadd (flog (fabs exp_sum)) max_ln, fge0 exp_sum).

(** wigner_d_logspace.py:91-117 log_powers_of_half *)
Definition log_powers_of_half (n : nat) : list fl := map (fun k => fmul (flog (F (/ 2))) (F (INR k))) (seq 0 n).
(** wigner_d_logspace.py:120-153 log_powers_trig_half_beta (under torch.jit.script math.log 0. is -inf) *)
Definition log_powers_cos (beta : R) (n : nat) : list fl :=
  map (fun k => fmul (F (INR k)) (flog (F (cos (beta / 2))))) (seq 0 n).
Definition log_powers_sin (beta : R) (n : nat) : list fl :=
  map (fun k => fmul (F (INR k)) (flog (F (sin (beta / 2))))) (seq 0 n).

(** * Flat positions *)
Local Open Scope Z_scope.
Notation coord := (Z * Z * Z)%type.
(** wigner_d_logspace.py:156-203 index_from_coords, one row (l, m, n) *)
Definition index_from_coords (c : coord) : Z :=
  let '(l, m, n) := c in ((l * (l + 1)) / 2 * (l + 2)) / 3 + (m * (m + 1)) / 2 + n.
(** the same computed on an int32 tensor: every intermediate result wraps *)
Definition w32 (z : Z) : Z := (z + 2 ^ 31) mod 2 ^ 32 - 2 ^ 31.
Definition index32 (c : coord) : Z :=
  let '(l, m, n) := c in
  w32 (w32 (w32 (w32 (l * w32 (l + 1)) / 2 * w32 (l + 2)) / 3 + w32 (m * w32 (m + 1)) / 2) + n).

(** wigner_d_logspace.py:206-281 coords_from_index for a batch.
    The floating point estimates are arguments: lfp is the list of values l_fp of lines 230-243 and mfp that of
    (-1 + sqrt (1 + 8 r)) // 2 of line 268 for the residual r (so any rounding can be put there).
    while torch.any(over): x = where(over, x - 1, x)   (lines 250-257 and 273-275) on a batch of (target, x) pairs.
    A while loop that has not stopped after [fuel] rounds is None. *)
Section Descend.
Variable f : Z -> Z.      (* l * (l + 1) * (l + 2) // 6   or   m * (m + 1) // 2 *)
Definition over (p : Z * Z) : bool := (fst p - f (snd p)) <? 0.
Fixpoint descend (fuel : nat) (st : list (Z * Z)) : option (list (Z * Z)) :=
  if existsb over st then
    match fuel with
    | O => None
    | S k => descend k (map (fun p => if over p then (fst p, snd p - 1) else p) st)
    end
  else Some st.
End Descend.
Definition tet6 (l : Z) : Z := l * (l + 1) * (l + 2) / 6.
Definition tri2 (m : Z) : Z := m * (m + 1) / 2.
Definition coords_from_index (fuel : nat) (indices : list Z) (lfp : list R) (mfp : Z -> R) : option (list coord) :=
  match descend tet6 fuel (combine indices (map (fun x => Int_part x + 1) lfp)) with
  | None => None
  | Some ls =>
    let res := map (fun p => fst p - tet6 (snd p)) ls in
    match descend tri2 fuel (map (fun r => (r, Int_part (mfp r) + 1)) res) with
    | None => None
    | Some ms => Some (map (fun lm => let '(il, rm) := lm in (snd il, snd rm, fst rm - tri2 (snd rm))) (combine ls ms))
    end
  end.
(** lines 230-243 and 268 in exact arithmetic *)
Definition l_fp (x : R) : R :=
  (Rpower (3 * x + sqrt (Rabs (9 * x * x - 1 / 27))) (1 / 3)
   + Rpower (Rabs (3 * x - sqrt (Rabs (9 * x * x - 1 / 27)))) (1 / 3) - 1)%R.
Definition m_fp (r : Z) : R := IZR (Int_part ((-1 + sqrt (1 + 8 * IZR r)) / 2)).

(** * Tables *)
Notation cell := (fl * bool)%type.
Definition arange (k : nat) : list Z := map Z.of_nat (seq 0 k).
Definition mesh (L : nat) : list (Z * Z) := flat_map (fun m => map (fun n => (m, n)) (arange (S L))) (arange (S L)).
(** lines 334-344 / 516-526 / 703-713: the coordinates (m, m, n), m >= n *)
Definition mmn_coords (L : nat) : list coord :=
  filter (fun c => let '(_, m, n) := c in n <=? m) (map (fun p => let '(m, n) := p in (m, m, n)) (mesh L)).
(** lines 365-369 / 544-548 / 734-738: the coordinates (m + 1, m, n) *)
Definition mp1_mn_coords (L : nat) : list coord :=
  filter (fun c => let '(_, m, n) := c in (n <=? m) && (0 <=? m) && (0 <=? n))
         (map (fun p => let '(m, n) := p in (m, m - 1, n - 1)) (mesh L)).
(** Python's x[: -k] for k > 0 *)
Definition drop_last {A} (k : nat) (x : list A) : list A := firstn (List.length x - k) x.

Definition in_range (size : Z) (i : Z) : bool := (0 <=? i) && (i <? size).
(** table[idx] *)
Definition gather (size : Z) (t : Z -> cell) (idx : list Z) : option (list cell) :=
  if forallb (in_range size) idx then Some (map t idx) else None.
(** table[idx] = vals *)
Definition put (t : Z -> cell) (iv : Z * cell) : Z -> cell := fun i => if i =? fst iv then snd iv else t i.
Definition scatter (size : Z) (t : Z -> cell) (idx : list Z) (vals : list cell) : option (Z -> cell) :=
  if forallb (in_range size) idx then Some (fold_left put (combine idx vals) t) else None.

Definition fz (z : Z) : fl := F (IZR z).
(** torch.lgamma at a positive integer *)
Definition lgamma (z : Z) : fl := F (ln (INR (fact (Z.to_nat (z - 1))))).
Definition half : fl := F (/ 2).

(** What differs between the three functions: the log-magnitude of a first seed, (log |u|, u >= 0) in the second seeds,
    and (log |u|, u >= 0) in the recursion. *)
Record variant := mkVar { v_seed : Z -> Z -> fl; v_u1 : Z -> Z -> fl * bool; v_u : Z -> Z -> Z -> fl * bool }.

(** lines 350-359 / 533-541 / 719-728: 0.5 * (lgamma(2m+1) - lgamma(m+n+1) - lgamma(m-n+1)) *)
Definition seed_norm (m n : Z) : fl :=
  fmul half (fsub (fsub (lgamma (2 * m + 1)) (lgamma (m + n + 1))) (lgamma (m - n + 1))).
(** lines 380-388 / 559-567 / 746-754: log-magnitude and sign of a second seed from its first seed *)
Definition second_seed (V : variant) (c : coord) (prev : cell) : cell :=
  let '(_, m, n) := c in
  let '(ul, us) := v_u1 V m n in
  (fadd (fadd (fst prev)
          (fmul half (fsub (fsub (flog (fz (2 * m + 1))) (flog (fz (2 * (m + n) + 2)))) (flog (fz (2 * (m - n) + 2))))))
        ul,
   negb (xorb (snd prev) us)).
(** lines 404-409 / 582-587 / 771-776 *)
Definition w_log (l m n : Z) : fl :=
  fsub (fmul (F (-1)) (flog (fz (2 * l - 2))))
       (fmul half (fadd (fadd (fadd (flog (fz (2 * l + 2 * m))) (flog (fz (2 * l - 2 * m))))
                              (flog (fz (2 * l + 2 * n)))) (flog (fz (2 * l - 2 * n))))).
(** lines 412-417 / 589-594 / 779-784 *)
Definition v_log (l m n : Z) : fl :=
  fadd (flog (fz (2 * l)))
       (fmul half (fadd (fadd (fadd (flog (fz (2 * l + 2 * m - 2))) (flog (fz (2 * l - 2 * m - 2))))
                              (flog (fz (2 * l + 2 * n - 2)))) (flog (fz (2 * l - 2 * n - 2))))).
(** lines 402-460 / 580-635 / 769-825, one element: a * d(l-1) - b * d(l-2) *)
Definition rec_cell (V : variant) (c : coord) (prev1 prev2 : cell) : cell :=
  let '(l, m, n) := c in
  let b_log := fadd (w_log l m n) (v_log l m n) in
  let '(u_log, u_sign) := v_u V l m n in
  let a_log := fadd (fadd (flog (fz (4 * l - 2))) u_log) (w_log l m n) in
  signedlogsumexp (fadd a_log (fst prev1)) (fadd b_log (fst prev2))
                  (negb (xorb (snd prev1) u_sign)) (negb (snd prev2)).

(** one round of the loop, lines 402-473 / 580-645 / 769-838; [step] counts from 0 *)
Definition rec_step (V : variant) (L : nat) (size : Z) (st : (Z -> cell) * list coord * list Z) (step : nat)
  : option ((Z -> cell) * list coord * list Z) :=
  let '(t, cs, idx) := st in
  let i1 := map (fun ci => let '((l, _, _), i) := ci in i - (l * (l + 1)) / 2) (combine cs idx) in
  let i2 := map (fun ci => let '((l, _, _), i) := ci in i - l * l) (combine cs idx) in
  match gather size t i1, gather size t i2 with
  | Some p1, Some p2 =>
    let vals := map (fun x => let '(c, (a, b)) := x in rec_cell V c a b) (combine cs (combine p1 p2)) in
    match scatter size t idx vals with
    | Some t' =>
      let k := (L - 1 - step)%nat in
      let cs' := map (fun c => let '(l, m, n) := c in (l + 1, m, n)) (drop_last k cs) in
      let idx' := map (fun ci => let '((l, _, _), i) := ci in i + (l * (l + 1)) / 2) (combine cs' (drop_last k idx)) in
      Some (t', cs', idx')
    | None => None
    end
  | _, _ => None
  end.
Fixpoint rec_loop (V : variant) (L : nat) (size : Z) (st : (Z -> cell) * list coord * list Z) (steps : list nat) :=
  match steps with
  | nil => Some st
  | s :: rest => match rec_step V L size st s with Some st' => rec_loop V L size st' rest | None => None end
  end.

(** the body shared by wigner_d_lt_half_pi (283-478), wigner_d_eq_half_pi (481-649) and wigner_d_gt_half_pi (652-843).
    [junk] is the content of the uninitialised memory of torch.empty. *)
Definition wigner_table (V : variant) (size : Z) (junk : Z -> fl) (L : nat) : option (list fl) :=
  let t0 : Z -> cell := fun i => (junk i, true) in
  let mmn := mmn_coords L in
  let first_idx := map index_from_coords mmn in
  match scatter size t0 first_idx (map (fun c => let '(_, m, n) := c in (v_seed V m n, true)) mmn) with
  | None => None
  | Some t1 =>
  let mp1 := mp1_mn_coords L in
  let second_idx := map index_from_coords mp1 in
  match gather size t1 (firstn (List.length second_idx) first_idx) with
  | None => None
  | Some prev =>
  match scatter size t1 second_idx (map (fun cp => second_seed V (fst cp) (snd cp)) (combine mp1 prev)) with
  | None => None
  | Some t2 =>
  let cs := map (fun c => let '(l, m, n) := c in (l + 2, m, n)) (drop_last (2 * L + 1) mmn) in
  let idx := map (fun ci => let '((l, _, _), i) := ci in i + l * l) (combine cs (drop_last (2 * L + 1) first_idx)) in
  match rec_loop V L size (t2, cs, idx) (seq 0 (L - 1)) with
  | None => None
  | Some (t, _, _) =>
    Some (map (fun i => fmul (fexp (fst (t i))) (sgnf (snd (t i)))) (arange (Z.to_nat size)))
  end end end end.

(** wigner_d_logspace.py:283-478 wigner_d_lt_half_pi *)
Definition lt_variant (beta : R) (L : nat) : variant :=
  let tc := (2 * (sin (beta / 2)) ^ 2)%R in
  let cosp := log_powers_cos beta (2 * (L + 1)) in
  let sinp := log_powers_sin beta (2 * (L + 1)) in
  mkVar
    (fun m n => fadd (fadd (seed_norm m n) (nth (Z.to_nat (m + n)) cosp NaN)) (nth (Z.to_nat (m - n)) sinp NaN))
    (fun m n => let u := (IZR (2 * m - 2 * n + 2) - IZR (2 * m + 2) * tc)%R in (flog (fabs (F u)), fge0 (F u)))
    (fun l m n => let u := (IZR (2 * l * (2 * l - 2)) - IZR (4 * m * n) - IZR (2 * l * (2 * l - 2)) * tc)%R in
                  (flog (fabs (F u)), fge0 (F u))).
Definition wigner_d_lt_half_pi (beta : R) (junk : Z -> fl) (L : nat) : option (list fl) :=
  let o := Z.of_nat L in
  wigner_table (lt_variant beta L) (((o * (o + 1)) / 2 * (o + 2)) / 3 + (o * (o + 1)) / 2 + o + 1) junk L.

(** wigner_d_logspace.py:481-649 wigner_d_eq_half_pi *)
Definition eq_variant (L : nat) : variant :=
  mkVar
    (fun m n => fadd (seed_norm m n) (nth (Z.to_nat m) (log_powers_of_half (L + 1)) NaN))
    (fun m n => (flog (fz (2 * n)), false))
    (fun l m n => (fadd (fadd (flog (F 4)) (flog (fz m))) (flog (fz n)), false)).
Definition wigner_d_eq_half_pi (junk : Z -> fl) (L : nat) : option (list fl) :=
  let o := Z.of_nat L in
  wigner_table (eq_variant L) ((((o + 1) * (o + 2)) / 2 * (o + 3)) / 3) junk L.

(** wigner_d_logspace.py:652-843 wigner_d_gt_half_pi *)
Definition gt_variant (beta : R) (L : nat) : variant :=
  let t := cos beta in
  let cosp := log_powers_cos beta (2 * (L + 1)) in
  let sinp := log_powers_sin beta (2 * (L + 1)) in
  mkVar
    (fun m n => fadd (fadd (seed_norm m n) (nth (Z.to_nat (m + n)) cosp NaN)) (nth (Z.to_nat (m - n)) sinp NaN))
    (fun m n => let u := (IZR (2 * m + 2) * t - IZR (2 * n))%R in (flog (fabs (F u)), fge0 (F u)))
    (fun l m n => let u := (IZR (2 * l * (2 * l - 2)) * t - IZR (4 * m * n))%R in (flog (fabs (F u)), fge0 (F u))).
Definition wigner_d_gt_half_pi (beta : R) (junk : Z -> fl) (L : nat) : option (list fl) :=
  let o := Z.of_nat L in
  wigner_table (gt_variant beta L) (((o * (o + 1)) / 2 * (o + 2)) / 3 + (o * (o + 1)) / 2 + o + 1) junk L.

(** (-1.0) ** (z % 2) *)
Definition par (z : Z) : R := if Z.even z then 1%R else (-1)%R.
(** wigner_d_logspace.py:846-940 read_lmn_wigner_d_half_pi_table, one row; lines 943-1039 read_mn_wigner_d_half_pi_table
    has the same body with a common l.  Reading outside the table is None. *)
Definition read_lmn (swap_mn : bool) (table : list fl) (c : coord) : option fl :=
  let '(l, m, n) := c in
  let sw := Z.abs m <? Z.abs n in
  let m' := if sw then n else m in
  let n' := if sw then m else n in
  let both_neg := (m' <? 0) && (n' <? 0) in
  let only_m := (m' <? 0) && (0 <=? n') in
  let only_n := (n' <? 0) && (0 <=? m') in
  let pre := ((if both_neg then par (m' - n') else 1) * (if only_m then par (l - n') else 1)
              * (if only_n then par (l + m') else 1) * (if sw then par (m' - n') else 1))%R in
  let pre := if swap_mn then (pre * par (m' - n'))%R else pre in
  let i := (l * (l + 1)) / 2 * (l + 2) / 3 + (Z.abs m' * (Z.abs m' + 1)) / 2 + Z.abs n' in
  if in_range (Z.of_nat (List.length table)) i
  then option_map (fun v => fmul v (F pre)) (nth_error table (Z.to_nat i)) else None.
