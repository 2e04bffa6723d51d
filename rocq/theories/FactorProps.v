(** Theorems for C21-C23, C68, C69: integer factorisation. *)
From Coq Require Import ZArith List Lia Znumtheory Sorted.
From Verif Require Import FactorModel FactorSpec FactorProofs.
Import ListNotations.
Open Scope Z_scope.

(** C21: whenever FactorECM returns, whatever the random stream. *)
Theorem c21_product : forall rnd fuel n l, 1 <= n -> FactorECM rnd fuel n = Some l -> zprod l = n /\ (forall z, In z l -> 2 <= z) /\ ascending l.
Proof. exact FactorECM_ok. Qed.
Print Assumptions c21_product.
(** below 2^16 it always returns, and the factors are prime. *)
Theorem c21_small_prime_factors : forall rnd fuel n, 1 <= n < 65536 ->
  exists l, FactorECM rnd (S fuel) n = Some l /\ zprod l = n /\ (forall p, In p l -> prime p) /\ ascending l.
Proof. exact FactorECM_small. Qed.
Print Assumptions c21_small_prime_factors.
(** trial division itself is right at every size. *)
Theorem c21_trial_division : forall fuel x, 1 <= x -> (Z.to_nat x < fuel)%nat ->
  exists l, factor_trial_division fuel x = Some l /\ zprod l = x /\ (forall p, In p l -> prime p) /\ ascending l.
Proof. exact trial_ok. Qed.
Print Assumptions c21_trial_division.
Example c21_example : FactorECM (fun _ => 0) 1 360 = Some [2; 2; 2; 3; 3; 5].
Proof. vm_compute. reflexivity. Qed.

(** C22 *)
Theorem c22_product : forall rnd fuel n a b, 1 <= n -> nearly_square_factors rnd fuel n = Some (a, b) -> a * b = n /\ 1 <= a /\ 1 <= b.
Proof. exact nearly_ok. Qed.
Print Assumptions c22_product.
Theorem c22_small_total : forall rnd fuel n, 1 <= n < 65536 -> exists a b, nearly_square_factors rnd (S fuel) n = Some (a, b).
Proof. exact nearly_small. Qed.
Print Assumptions c22_small_total.
Example c22_example : nearly_square_factors (fun _ => 0) 1 360 = Some (20, 18).
Proof. vm_compute. reflexivity. Qed.

(** C23 *)
Theorem c23_gcd : forall a b, 0 < b \/ (b = 0 /\ 0 <= a) -> gcd a b = Z.gcd a b.
Proof. exact gcd_ok. Qed.
Print Assumptions c23_gcd.
Theorem c23_gcd_up_to_sign : forall a b, Z.abs (gcd a b) = Z.gcd a b.
Proof. exact gcd_abs. Qed.
Print Assumptions c23_gcd_up_to_sign.
Theorem c23_egcd : forall a b g s t, 0 < b -> egcd a b = (g, s, t) -> g = Z.gcd a b /\ s * a + t * b = g.
Proof. exact egcd_ok. Qed.
Print Assumptions c23_egcd.
Theorem c23_modular_inverse : forall a n, 1 < n ->
  (Z.gcd a n = 1 -> exists x, modular_inverse a n = inr x /\ 0 <= x < n /\ (a * x) mod n = 1) /\ (Z.gcd a n <> 1 -> modular_inverse a n = inl a).
Proof. exact modinv_ok. Qed.
Print Assumptions c23_modular_inverse.
Theorem c23_sieve : forall e z, In z (gen_primes e) <-> prime z /\ z < e.
Proof. exact gen_primes_ok. Qed.
Print Assumptions c23_sieve.
Theorem c23_sieve_increasing : forall e, StronglySorted Z.lt (gen_primes e).
Proof. exact gen_primes_sorted. Qed.
Print Assumptions c23_sieve_increasing.
Example c23_example : gen_primes 30 = [2; 3; 5; 7; 11; 13; 17; 19; 23; 29] /\ modular_inverse (-3) 7 = inr 2 /\ gcd (-12) 18 = 6.
Proof. vm_compute. auto. Qed.

(** C68, refuted: with some random draws the composite (Carmichael) number 75361 = 11*13*17*31 is returned unfactored. *)
Theorem c68_factors_prime_refuted : exists rnd n, forall fuel, FactorECM rnd (S fuel) n = Some [n] /\ ~ prime n.
Proof. exact carmichael_aux. Qed.
Print Assumptions c68_factors_prime_refuted.
(** C69, refuted: n = 0 never returns, whatever the step budget. *)
Theorem c69_terminates_refuted : forall rnd fuel, FactorECM rnd fuel 0 = None.
Proof. exact FactorECM_zero. Qed.
Print Assumptions c69_terminates_refuted.
Theorem c69_trial_division_zero : forall fuel, factor_trial_division fuel 0 = None.
Proof. exact trial_zero_any. Qed.
Print Assumptions c69_trial_division_zero.
