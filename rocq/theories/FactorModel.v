(** Model of ebsdtorch/utils/factorize.py.  Python integers are [Z]; // and % are floor division [Z.div], [Z.modulo];
    int(math.sqrt(x)) is the exact integer square root (exact for the sizes reaching that line).  Random draws are read in
    order from an arbitrary stream.  Loops without a syntactic bound carry a step budget ("fuel"): where the budget is
    computed from the arguments the theorems show it is never exhausted; for factor_ecm itself the budget is an argument
    and [None] means "still running". *)
From Coq Require Import ZArith List Lia Bool.
Import ListNotations.
Open Scope Z_scope.

(** sorted() on a list of integers: insertion sort *)
Fixpoint zins (x : Z) (l : list Z) : list Z := match l with [] => [x] | y :: r => if x <=? y then x :: l else y :: zins x r end.
Definition zsort (l : list Z) : list Z := fold_right zins [] l.

(** factorize.py:26-28 and :30-32: [while x % d == 0: append d; x //= d]; [None] if the budget runs out *)
Fixpoint strip (fuel : nat) (d x : Z) : option (list Z * Z) :=
  match fuel with
  | O => None
  | S f => if x mod d =? 0 then match strip f d (x / d) with None => None | Some (l, y) => Some (d :: l, y) end else Some ([], x)
  end.
(** factorize.py:29: range(3, int(sqrt(x)) + 1, 2) *)
Definition odd_range (x : Z) : list Z := map (fun i => 3 + 2 * Z.of_nat i) (seq 0 (Z.to_nat ((Z.sqrt x - 1) / 2))).
Fixpoint strip_all (fuel : nat) (ds : list Z) (x : Z) : option (list Z * Z) :=
  match ds with
  | [] => Some ([], x)
  | d :: r => match strip fuel d x with None => None
              | Some (l, y) => match strip_all fuel r y with None => None | Some (l', z) => Some (l ++ l', z) end end
  end.
(** factorize.py:24-35 factor_trial_division *)
Definition factor_trial_division (fuel : nat) (x : Z) : option (list Z) :=
  match strip fuel 2 x with
  | None => None
  | Some (l2, x1) =>
      match strip_all fuel (odd_range x1) x1 with
      | None => None
      | Some (l, y) => Some (zsort ((l2 ++ l) ++ (if 1 <? y then [y] else [])))
      end
  end.

(** factorize.py:43-50 gen_primes_sieve_of_eratosthenes; the list of booleans as a function of the index *)
Definition zrange (a b : Z) : list Z := map (fun i => a + Z.of_nat i) (seq 0 (Z.to_nat (b - a))).
(** range(p*p, end, p) *)
Definition mult_range (p e : Z) : list Z := map (fun i => p * p + p * Z.of_nat i) (seq 0 (Z.to_nat ((e - p * p + p - 1) / p))).
Definition mark (c : Z -> bool) (i : Z) : Z -> bool := fun j => if j =? i then true else c j.
Definition sieve_step (e : Z) (c : Z -> bool) (p : Z) : Z -> bool := if c p then c else fold_left mark (mult_range p e) c.
Definition gen_primes (e : Z) : list Z :=
  let c := fold_left (sieve_step e) (zrange 2 (Z.sqrt e + 1)) (fun _ => false) in
  filter (fun p => negb (c p)) (zrange 2 e).

(** factorize.py:52-55 gcd *)
Fixpoint gcd_loop (fuel : nat) (a b : Z) : Z :=
  match fuel with O => a | S f => if b =? 0 then a else gcd_loop f b (a mod b) end.
Definition gcd (a b : Z) : Z := gcd_loop (S (S (Z.abs_nat b))) a b.
(** factorize.py:57-62 egcd *)
Fixpoint egcd_loop (fuel : nat) (ro r so s : Z) : Z * Z :=
  match fuel with O => (ro, so) | S f => if r =? 0 then (ro, so) else egcd_loop f r (ro mod r) s (so - (ro / r) * s) end.
Definition egcd (a b : Z) : Z * Z * Z :=
  let (ro, so) := egcd_loop (S (S (Z.abs_nat b))) a b 1 0 in (ro, so, (ro - so * a) / b).
(** factorize.py:64-68 modular_inverse; [inl a]: ValueError(a) *)
Definition modular_inverse (a n : Z) : Z + Z := let '(g, s, _) := egcd a n in if g =? 1 then inr (s mod n) else inl a.

(** factorize.py:70-77 elliptic_curve_add *)
Definition ec_add (N A X0 Y0 X1 Y1 : Z) : Z + (Z * Z) :=
  let slope := if (X0 =? X1) && (Y0 =? Y1)
    then match modular_inverse (2 * Y0) N with inl a => inl a | inr i => inr (((3 * X0 * X0 + A) * i) mod N) end
    else match modular_inverse (X1 - X0) N with inl a => inl a | inr i => inr (((Y1 - Y0) * i) mod N) end in
  match slope with
  | inl a => inl a
  | inr l => let x := (l * l - X0 - X1) mod N in inr (x, (l * (X0 - x) - Y0) mod N)
  end.
(** factorize.py:79-87 elliptic_curve_mul; the loop runs over the bits of k-1 (a binary natural) *)
Fixpoint ec_mul_pos (N A X Y BX BY : Z) (k : positive) : Z + (Z * Z) :=
  let odd := match k with xO _ => false | _ => true end in
  match (if odd then ec_add N A X Y BX BY else inr (X, Y)) with
  | inl a => inl a
  | inr (X', Y') =>
      match ec_add N A BX BY BX BY with
      | inl a => inl a
      | inr (BX', BY') => match k with xH => inr (X', Y') | xO k' | xI k' => ec_mul_pos N A X' Y' BX' BY' k' end
      end
  end.
Definition ec_mul (N A X Y k : Z) : Z + (Z * Z) := match k - 1 with Zpos p => ec_mul_pos N A X Y X Y p | _ => inr (X, Y) end.

(** factorize.py:93-97 prime_power *)
Fixpoint prime_power (fuel : nat) (p bound2 mp : Z) : Z :=
  match fuel with O => mp | S f => if mp * p <? bound2 then prime_power f p bound2 (mp * p) else mp end.

Section Random.
Variable rnd : nat -> Z.
(** factorize.py:37-41: up to [trials] draws of random.randint(2, n-2) *)
Fixpoint fermat (trials pos : nat) (n : Z) : bool * nat :=
  match trials with
  | O => (true, pos)
  | S t => if (2 + rnd pos mod (n - 3)) ^ (n - 1) mod n =? 1 then fermat t (S pos) n else (false, S pos)
  end.
(** factorize.py:105-109 *)
Fixpoint pick_curve (fuel pos : nat) (N : Z) : option (Z * Z * Z * nat) :=
  match fuel with
  | O => None
  | S f =>
      let X := rnd pos mod N in let Y := rnd (S pos) mod N in let A := rnd (S (S pos)) mod N in
      let B := (Y * Y - X * X * X - A * X) mod N in
      if 4 * A * A * A - 27 * B * B =? 0 then pick_curve f (S (S (S pos))) N else Some (X, Y, A, S (S (S pos)))
  end.
(** factorize.py:111-115: run the curve over the primes; [inl a] when a ValueError(a) is caught, [inr tt] when all primes pass *)
Fixpoint run_primes (N A X Y bound2 : Z) (fuel : nat) (ps : list Z) : Z + unit :=
  match ps with
  | [] => inr tt
  | p :: r => match ec_mul N A X Y (prime_power fuel p bound2 p) with
              | inl a => inl a
              | inr (X', Y') => run_primes N A X' Y' bound2 fuel r
              end
  end.
(** factorize.py:89-121 factor_ecm *)
Fixpoint factor_ecm (fuel : nat) (pos : nat) (bound N : Z) : option (list Z * nat) :=
  match fuel with
  | O => None
  | S f =>
    if N <? 65536 then match factor_trial_division (S (Z.to_nat N)) N with None => None | Some l => Some (l, pos) end else
    let (pr, pos1) := fermat 32 pos N in
    if pr then Some ([N], pos1) else
    match pick_curve f pos1 N with
    | None => None
    | Some (X, Y, A, pos2) =>
        match run_primes N A X Y (Z.sqrt bound + 1) (Z.to_nat bound) (gen_primes bound) with
        | inl a =>
            let g := gcd a N in
            if g =? N then factor_ecm f pos2 (bound + 512) N else
            match factor_ecm f pos2 (bound + 512) g with
            | None => None
            | Some (l1, pos3) =>
                match factor_ecm f pos3 (bound + 512) (N / g) with
                | None => None
                | Some (l2, pos4) => Some (zsort (l1 ++ l2), pos4)
                end
            end
        | inr _ => factor_ecm f pos2 (bound + 512) N
        end
    end
  end.
(** factorize.py:23,123 FactorECM *)
Definition FactorECM (fuel : nat) (N : Z) : option (list Z) := match factor_ecm fuel 0 512 N with None => None | Some (l, _) => Some l end.
(** factorize.py:126-140 nearly_square_factors *)
Definition split_step (ab : Z * Z) (f : Z) : Z * Z := let (a, b) := ab in if b <? a then (a, b * f) else (a * f, b).
Definition nearly_square_factors (fuel : nat) (n : Z) : option (Z * Z) :=
  match FactorECM fuel n with None => None | Some l => Some (fold_left split_step (rev l) (1, 1)) end.
End Random.
