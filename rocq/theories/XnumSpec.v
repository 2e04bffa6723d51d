(** What an extended-exponent number stands for; independent of the code. *)
From Verif Require Import Base WigModel.
Local Open Scope R_scope.

(** the pair (x, i) stands for x * 2^(460 i) *)
Definition xval (c : fl * Z) (v : R) : Prop := exists x, fst c = F x /\ v = x * powerRZ 2 (460 * snd c).
(** mantissa between 2^-230 (included) and 2^230 *)
Definition normalised (c : fl * Z) : Prop := exists x, fst c = F x /\ powerRZ 2 (-230) <= Rabs x < powerRZ 2 230.
(** 5 * 7 * 9 * ... * (2 L + 3) *)
Fixpoint odd_product (L : nat) : R := match L with O => 1 | S k => (2 * INR (S k) + 3) * odd_product k end.
