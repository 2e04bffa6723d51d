(** Model of the second direct structure matrix that Cell stores (unit_cell.py:312-327). Exact reals. *)
From Verif Require MonteModel.
From Verif Require Import Base SgModel CellModel.
Open Scope R_scope.

(** no matrix (the attribute is None), a matrix with NaN entries, or a matrix *)
Inductive second := NoSecond | NaNSecond | Second (m : mat).
(** y = torch.sqrt(1 - x * x), lines 315 and 323; [None]: NaN *)
Definition other_leg (x : R) : option R := if Rle_dec 0 (1 - x * x) then Some (sqrt (1 - x * x)) else None.
(** line 316: Mx with its .T *)
Definition turn_x (x y : R) : mat := mtr (mkM 1 0 0 0 x (- y) 0 y x).
(** line 324: My with its .T *)
Definition turn_y (x y : R) : mat := mtr (mkM x 0 (- y) 0 1 0 y 0 x).
(** line 314: x = 0.5 / torch.cos(torch.pi * 0.5 * self.alpha); [None]: division by zero (infinite, then NaN) *)
Definition first_leg (alpha : R) : option R := let c := cos (PI * (1/2) * alpha) in if Req_EM_T c 0 then None else Some (1/2 / c).
(** lines 318-322 *)
Definition second_leg (alpha : R) : R := 2 * sin (PI * (1/2) * alpha) / sqrt 3.
(** lines 312-327; [v] is the volume. A NaN leg makes the corner entry of the product NaN *)
Definition dsm2 (sg : nat) (L : lattice) (v : R) : second :=
  if Nat.eqb (cell_xtal_system sg) 5 then
    match first_leg (al L) with
    | Some x1 => match other_leg x1, other_leg (second_leg (al L)) with
                 | Some y1, Some y2 => Second (mmul (mmul (turn_y (second_leg (al L)) y2) (turn_x x1 y1)) (dsm L v))
                 | _, _ => NaNSecond
                 end
    | None => NaNSecond
    end
  else NoSecond.
