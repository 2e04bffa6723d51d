(** Model of ebsdtorch/harmonics/wigner_d_xnum.py (virtual extended-exponent numbers and the Wigner d table built on them).
    Mantissas are exact reals extended with infinities and NaN (type [fl] of WigModel), exponents are unbounded integers
    (int32 in the code), tensors are lists, tables under construction are maps from flat positions to cells.
    In xnum_to_fp and xnum_sum the constants are written 2.0**IND with IND an int32 tensor, so torch computes them in the
    default floating point type: [dd] tells whether that type is float64.  In float32 (the torch default) 2.0**460 is
    infinity and 2.0**(-460) is zero. *)
From Verif Require Import Base WigModel.
Local Open Scope R_scope.

Notation xnum := (fl * Z)%type.
(** 2^z *)
Definition p2 (z : Z) : R := powerRZ 2 z.
(** comparisons w >= r and w < r, false for NaN *)
Definition fge (a : fl) (r : R) : bool :=
  match a with F x => if Rle_dec r x then true else false | PInf => true | _ => false end.
Definition flt (a : fl) (r : R) : bool :=
  match a with F x => if Rlt_dec x r then true else false | NInf => true | _ => false end.

(** wigner_d_xnum.py:27-49 xnum_norm, one element *)
Definition xnum_norm (c : xnum) : xnum :=
  let '(x, ix) := c in
  let w := fabs x in
  let big := fge w (p2 230) in
  let small := flt w (p2 (-230)) in
  let x1 := if big then fmul x (F (p2 (-460))) else x in
  let x2 := if small then fmul x1 (F (p2 460)) else x1 in
  let i1 := if big then (ix + 1)%Z else ix in
  let i2 := if small then (i1 - 1)%Z else i1 in
  (x2, i2).

(** 2.0**IND and 2.0**(-IND) of lines 69-70 and 99 in the default floating point type *)
Definition big_s (dd : bool) : fl := if dd then F (p2 460) else PInf.
Definition bigi_s (dd : bool) : fl := if dd then F (p2 (-460)) else F 0.
(** wigner_d_xnum.py:52-71 xnum_to_fp, one element *)
Definition xnum_to_fp (dd : bool) (c : xnum) : fl :=
  let '(x, ix) := c in
  if (ix =? 0)%Z then x else if (ix <? 0)%Z then fmul x (bigi_s dd) else fmul x (big_s dd).

(** wigner_d_xnum.py:74-123 xnum_sum, one element *)
Definition xnum_sum (dd : bool) (a b : xnum) (fa fb : R) : xnum :=
  let '(x, ix) := a in
  let '(y, iy) := b in
  let id := (ix - iy)%Z in
  let ax := fmul (F fa) x in
  let byy := fmul (F fb) y in
  let z := if (id =? 0)%Z then fadd ax byy
           else if (id =? 1)%Z then fadd ax (fmul byy (bigi_s dd))
           else if (id =? -1)%Z then fadd byy (fmul ax (bigi_s dd))
           else if (1 <? id)%Z then ax else byy in
  let iz := if (id =? 0)%Z then ix else if (id =? 1)%Z then ix else if (id =? -1)%Z then iy
            else if (1 <? id)%Z then ix else iy in
  xnum_norm (z, iz).

(** torch.log2, torch.sign, % 460, // 460, torch.pow(2.0, .) on one element *)
Definition flog2 (a : fl) : fl :=
  match a with
  | F x => if Rlt_dec 0 x then F (ln x / ln 2) else if Rlt_dec x 0 then NaN else NInf
  | PInf => PInf | NInf => NaN | NaN => NaN
  end.
Definition fsign (a : fl) : fl :=
  match a with
  | F x => F (if Rlt_dec 0 x then 1 else if Rlt_dec x 0 then -1 else 0)
  | PInf => F 1 | NInf => F (-1) | NaN => NaN
  end.
Definition frem460 (a : fl) : fl := match a with F x => F (x - 460 * IZR (Int_part (x / 460))) | _ => NaN end.
Definition fdiv460 (a : fl) : fl := match a with F x => F (IZR (Int_part (x / 460))) | _ => NaN end.
Definition fpow2 (a : fl) : fl := match a with F x => F (Rpower 2 x) | PInf => PInf | NInf => F 0 | NaN => NaN end.
(** .to(torch.int32): truncation; [nanint] is whatever the hardware gives for NaN and infinities *)
Definition ftoint (nanint : Z) (a : fl) : Z :=
  match a with F x => if Rle_dec 0 x then Int_part x else (- Int_part (- x))%Z | _ => nanint end.

(** wigner_d_xnum.py:156-181 and 205-223: entry number k of a power table, lm being log2 of the base *)
Definition power_entry (nanint : Z) (lm : fl) (k : nat) : xnum :=
  let s := fsign lm in
  let lg := fmul lm (F (INR k)) in
  let r := frem460 (fabs lg) in
  let e := ftoint nanint (fmul (fdiv460 (fabs lg)) s) in
  xnum_norm (fpow2 (fmul r s), e).
(** wigner_d_xnum.py:126-183 trig_powers_xnum: the cosine and the sine table *)
Definition trig_powers_xnum (nanint : Z) (largest : nat) (beta : R) : list xnum * list xnum :=
  (map (power_entry nanint (flog2 (F (Rabs (cos (beta / 2)))))) (seq 0 (largest + 1)),
   map (power_entry nanint (flog2 (F (Rabs (sin (beta / 2)))))) (seq 0 (largest + 1))).
(** wigner_d_xnum.py:186-225 half_powers_xnum *)
Definition half_powers_xnum (nanint : Z) (largest : nat) : list xnum :=
  map (power_entry nanint (flog2 (F (/ 2)))) (seq 0 (largest + 1)).

(** * The table *)
(** reading out of the power tables: torch raises outside, which never happens below; NaN stands for it *)
Definition rd (t : list xnum) (i : Z) : xnum := nth (Z.to_nat i) t (NaN, 0%Z).

(** wigner_d_xnum.py:326-361: a first seed (m, m, n), normalised.  The exponential of the lgamma combination is
    [fexp (seed_norm m n)] (WigModel, same expression). *)
Definition x_seed (nanint : Z) (beta : R) (L : nat) (m n : Z) : xnum :=
  let tp := trig_powers_xnum nanint (2 * (L + 1)) beta in
  let hp := half_powers_xnum nanint (2 * L) in
  let e := fexp (seed_norm m n) in
  if Req_EM_T beta PI
  then xnum_norm (fmul e (fst (rd hp m)), snd (rd hp m))
  else let c := rd (fst tp) (m + n) in let s := rd (snd tp) (m - n) in
       xnum_norm (fmul (fmul e (fst c)) (fst s), (snd c + snd s)%Z).
(** wigner_d_xnum.py:377-386: u of the second seeds *)
Definition x_u1 (beta : R) (m n : Z) : R :=
  if Rlt_dec beta (PI / 2) then
    let tc := 2 * sin (beta / 2) ^ 2 in (2 * IZR m - 2 * IZR n + 2) - (2 * IZR m + 2) * tc
  else if Req_EM_T beta (PI / 2) then -2 * IZR n
  else let t := cos beta in (2 * IZR m + 2) * t - 2 * IZR n.
(** wigner_d_xnum.py:388-406: a second seed (m + 1, m, n) from the first one *)
Definition x_second (beta : R) (c : coord) (prev : xnum) : xnum :=
  let '(_, m, n) := c in
  xnum_norm (fmul (fmul (fst prev) (F (sqrt ((2 * IZR m + 1) / ((2 * (IZR m + IZR n) + 2) * (2 * (IZR m - IZR n) + 2))))))
                  (F (x_u1 beta m n)), snd prev).
(** wigner_d_xnum.py:434-450: u of the recursion *)
Definition x_u (beta : R) (l m n : Z) : R :=
  if Rlt_dec beta (PI / 2) then
    let tc := 2 * sin (beta / 2) ^ 2 in
    (2 * IZR l * (2 * IZR l - 2) - 2 * IZR m * 2 * IZR n) - 2 * IZR l * (2 * IZR l - 2) * tc
  else if Req_EM_T beta (PI / 2) then -4 * IZR m * IZR n
  else let t := cos beta in 2 * IZR l * (2 * IZR l - 2) * t - 2 * IZR m * 2 * IZR n.
(** wigner_d_xnum.py:416-481, one element: a * d(l-1) - b * d(l-2); the logarithms w_log (417-422) and v_log (424-429) are
    the expressions of WigModel *)
Definition x_rec (dd : bool) (beta : R) (c : coord) (prev1 prev2 : xnum) : xnum :=
  let '(l, m, n) := c in
  let b := fexp (fadd (w_log l m n) (v_log l m n)) in
  let a := fmul (fmul (F (4 * IZR l - 2)) (F (x_u beta l m n))) (fexp (w_log l m n)) in
  let xa := xnum_norm (fmul a (fst prev1), snd prev1) in
  let xb := xnum_norm (fmul b (fst prev2), snd prev2) in
  xnum_sum dd xa xb 1 (-1).

(** table[idx] and table[idx] = vals; an index outside the table makes torch raise: None *)
Definition xgather (size : Z) (t : Z -> xnum) (idx : list Z) : option (list xnum) :=
  if forallb (in_range size) idx then Some (map t idx) else None.
Definition xput (t : Z -> xnum) (iv : Z * xnum) : Z -> xnum := fun i => if (i =? fst iv)%Z then snd iv else t i.
Definition xscatter (size : Z) (t : Z -> xnum) (idx : list Z) (vals : list xnum) : option (Z -> xnum) :=
  if forallb (in_range size) idx then Some (fold_left xput (combine idx vals) t) else None.

Local Open Scope Z_scope.
(** wigner_d_xnum.py:415-491, one round of the loop; step counts from 0 *)
Definition x_step (dd : bool) (beta : R) (L : nat) (size : Z) (st : (Z -> xnum) * list coord * list Z) (step : nat)
  : option ((Z -> xnum) * list coord * list Z) :=
  let '(t, cs, idx) := st in
  let i1 := map (fun ci => let '((l, _, _), i) := ci in i - (l * (l + 1)) / 2) (combine cs idx) in
  let i2 := map (fun ci => let '((l, _, _), i) := ci in i - l * l) (combine cs idx) in
  match xgather size t i1, xgather size t i2 with
  | Some p1, Some p2 =>
    let vals := map (fun x => let '(c, (a, b)) := x in x_rec dd beta c a b) (combine cs (combine p1 p2)) in
    match xscatter size t idx vals with
    | Some t' =>
      let k := (L - 1 - step)%nat in
      let cs' := map (fun c => let '(l, m, n) := c in (l + 1, m, n)) (drop_last k cs) in
      let idx' := map (fun ci => let '((l, _, _), i) := ci in i + (l * (l + 1)) / 2) (combine cs' (drop_last k idx)) in
      Some (t', cs', idx')
    | None => None
    end
  | _, _ => None
  end.
Fixpoint x_loop (dd : bool) (beta : R) (L : nat) (size : Z) (st : (Z -> xnum) * list coord * list Z) (steps : list nat) :=
  match steps with
  | nil => Some st
  | s :: rest => match x_step dd beta L size st s with Some st' => x_loop dd beta L size st' rest | None => None end
  end.
(** wigner_d_xnum.py:278-493 wigner_d_xnum.  [junk] is the content of the uninitialised memory of torch.empty; the
    coordinate lists (312-321, 363-369) are those of WigModel. *)
Definition wigner_d_xnum (dd : bool) (nanint : Z) (junk : Z -> xnum) (beta : R) (L : nat) : option (list fl) :=
  let o := Z.of_nat L in
  let size := (((o + 1) * (o + 2)) / 2) * (o + 3) / 3 in
  let mmn := mmn_coords L in
  let first_idx := map index_from_coords mmn in
  match xscatter size junk first_idx (map (fun c => let '(_, m, n) := c in x_seed nanint beta L m n) mmn) with
  | None => None
  | Some t1 =>
  let mp1 := mp1_mn_coords L in
  let second_idx := map index_from_coords mp1 in
  match xgather size t1 (firstn (List.length second_idx) first_idx) with
  | None => None
  | Some prev =>
  match xscatter size t1 second_idx (map (fun cp => x_second beta (fst cp) (snd cp)) (combine mp1 prev)) with
  | None => None
  | Some t2 =>
  let cs := map (fun c => let '(l, m, n) := c in (l + 2, m, n)) (drop_last (2 * L + 1) mmn) in
  let idx := map (fun ci => let '((l, _, _), i) := ci in i + l * l) (combine cs (drop_last (2 * L + 1) first_idx)) in
  match x_loop dd beta L size (t2, cs, idx) (seq 0 (L - 1)) with
  | None => None
  | Some (t, _, _) => Some (map (fun i => xnum_to_fp dd (t i)) (arange (Z.to_nat size)))
  end end end end.

(** wigner_d_xnum.py:496-567 retrieve_wigner_d, one row (l, m, n).  Indices -size .. -1 count from the end, others outside
    the table raise: None. *)
Definition retrieve_wigner_d (swap_mn : bool) (table : list fl) (c : coord) : option fl :=
  let '(l, m, n) := c in
  let sw := Z.abs m <? Z.abs n in
  let m' := if sw then n else m in
  let n' := if sw then m else n in
  let pre := if sw then par (m' - n') else 1%R in
  let pre := if swap_mn then (pre * par (m' - n'))%R else pre in
  let i := (l * (l + 1)) / 2 * (l + 2) / 3 + (m' * (m' + 1)) / 2 + n' in
  let size := Z.of_nat (List.length table) in
  let j := if i <? 0 then i + size else i in
  if in_range size j then option_map (fun v => fmul v (F pre)) (nth_error table (Z.to_nat j)) else None.
