(** What a Wigner d function is, and the flat numbering, independent of the model. *)
From Verif Require Import Base WigModel.
Local Open Scope R_scope.

(** 1 / z!, zero for negative z *)
Definition ifact (z : Z) : R := if (z <? 0)%Z then 0 else / INR (fact (Z.to_nat z)).
Definition zfact (z : Z) : R := INR (fact (Z.to_nat z)).

(** Wigner's explicit sum for d^l_{m n}(beta), |m|, |n| <= l, in the sign convention of the library (Fukushima's: for
    m >= n the seed d^m_{m n} is positive on (0, pi)); terms with a factorial of a negative number are absent. *)
Definition wigner (l m n : Z) (beta : R) : R :=
  sqrt (zfact (l + m) * zfact (l - m) * zfact (l + n) * zfact (l - n)) *
  sum_f_R0 (fun i => let s := Z.of_nat i in
    (-1) ^ i * cos (beta / 2) ^ Z.to_nat (2 * l + n - m - 2 * s) * sin (beta / 2) ^ Z.to_nat (m - n + 2 * s)
    * (ifact (l + n - s) * ifact s * ifact (m - n + s) * ifact (l - m - s))) (Z.to_nat (2 * l)).

(** the value a (log-magnitude, sign) pair stands for *)
Definition stands_for (c : fl * bool) (x : R) : Prop :=
  match fst c with
  | F r => x = (if snd c then 1 else -1) * exp r
  | NInf => x = 0
  | _ => False
  end.

(** admissible (l, m, n), ordered as they are stored *)
Definition adm (c : Z * Z * Z) : Prop := let '(l, m, n) := c in (0 <= n <= m /\ m <= l)%Z.
Definition lex_lt (c d : Z * Z * Z) : Prop :=
  let '(l, m, n) := c in let '(l', m', n') := d in
  (l < l' \/ l = l' /\ (m < m' \/ m = m' /\ n < n'))%Z.
(** the flat position i of (l, m, n): tetrahedral + triangular + linear *)
Definition flat_pos (l m n i : Z) : Prop := (6 * i = l * (l + 1) * (l + 2) + 3 * (m * (m + 1)) + 6 * n)%Z.
(** a flat table of all admissible values up to degree L *)
Definition table_of (beta : R) (L : nat) (tab : list fl) : Prop :=
  (6 * List.length tab = (L + 1) * (L + 2) * (L + 3))%nat /\
  forall l m n i : Z, (0 <= n <= m)%Z -> (m <= l <= Z.of_nat L)%Z -> flat_pos l m n i ->
    nth_error tab (Z.to_nat i) = Some (F (wigner l m n beta)).
