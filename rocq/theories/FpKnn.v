(** Inner products summed in any order, with rounding. *)
From Coq Require Import Permutation.
From Verif Require Import Base BaseFacts SimSpec FpModel FpSpec FpProofs KnnModel KnnSpec.
Local Open Scope R_scope.
Fixpoint sumr (l : list R) : R := match l with [] => 0 | x :: r => x + sumr r end.
Lemma sumr_app a b : sumr (a ++ b) = sumr a + sumr b. Proof. induction a; cbn; lra. Qed.
Lemma sumr_perm a b : Permutation a b -> sumr a = sumr b. Proof. induction 1; cbn; lra. Qed.
Lemma tree_facts h l e : sum_tree l e -> (forall x, List.In x l -> dep x = 1%nat) ->
  val e = sumr (map val l) /\ bnd h e = sumr (map (bnd h) l) + (INR (length l) - 1) * h /\ (dep e <= length l)%nat /\ (1 <= length l)%nat.
Proof.
  induction 1 as [e|l l1 l2 a b P S1 IH1 S2 IH2]; intros D.
  - cbn [map sumr length]. rewrite (D e (or_introl eq_refl)). simpl INR. repeat split; try lra; lia.
  - destruct IH1 as (V1 & B1 & D1 & L1); [intros x I; apply D, (Permutation_in _ (Permutation_sym P)), in_or_app; left; exact I|].
    destruct IH2 as (V2 & B2 & D2 & L2); [intros x I; apply D, (Permutation_in _ (Permutation_sym P)), in_or_app; right; exact I|].
    rewrite (sumr_perm _ _ (Permutation_map val P)), (sumr_perm _ _ (Permutation_map (bnd h) P)), (Permutation_length P), !map_app, !sumr_app, app_length, plus_INR.
    cbn [val bnd dep]. rewrite V1, V2, B1, B2. repeat split; try lra; lia.
Qed.
Definition prods (q d : list R) : list fexpr := map (fun p => Mul (Num (fst p)) (Num (snd p))) (combine q d).
Lemma prods_val q d : sumr (map val (prods q d)) = dotl q d.
Proof. unfold prods. revert d. induction q as [|a q IH]; intros [|b d]; try reflexivity. cbn in *. rewrite IH. reflexivity. Qed.
Lemma prods_bnd h q d : sumr (map (bnd h) (prods q d)) = dotl (map Rabs q) (map Rabs d) + INR (length (prods q d)) * h.
Proof.
  unfold prods. revert d. induction q as [|a q IH]; intros [|b d]; try (cbn; lra). cbn [combine map sumr dotl fst snd bnd length]. rewrite IH, S_INR. lra.
Qed.
Lemma matmul_near u h q d s n : 0 <= u -> 0 <= h -> length q = n -> length d = n -> fl_matmul (near u h) q d s ->
  Rabs (s - dotl q d) <= ((1 + u)^n - 1) * dotl (map Rabs q) (map Rabs d) + 2 * INR n * (1 + u)^n * h.
Proof.
  intros U Hh Lq Ld [e [T E]]. fold (prods q d) in T.
  assert (K : length (prods q d) = n) by (unfold prods; rewrite map_length, combine_length, Lq, Ld; apply Nat.min_id).
  assert (DD : forall x, List.In x (prods q d) -> dep x = 1%nat) by (unfold prods; intros x I; apply in_map_iff in I; destruct I as [p [<- _]]; reflexivity).
  destruct (tree_facts h _ _ T DD) as (V & B & D & L). destruct (tree_facts 0 _ _ T DD) as (_ & B0 & _).
  pose proof (ev_err u h U Hh e s E) as Q. unfold err_ok in Q. rewrite V, B, B0, prods_val, !prods_bnd in Q. rewrite K in *.
  set (A := dotl (map Rabs q) (map Rabs d)) in *. pose proof (pow_le1 u (dep e) n U D) as P. pose proof (pow_ge1 u (dep e) U) as P1.
  assert (N1 : 1 <= INR n) by (apply (le_INR 1); lia).
  assert (A0 : 0 <= A). { pose proof (bnd_pos 0 e (Rle_refl 0)) as Z. rewrite B0, prods_bnd in Z. fold A in Z. lra. }
  assert ((1 + u)^dep e * (A + INR n * h + (INR n - 1) * h) <= (1 + u)^n * (A + INR n * h + (INR n - 1) * h)).
  { apply Rmult_le_compat_r; [|exact P]. assert (0 <= INR n * h) by (apply Rmult_le_pos; lra). assert (0 <= (INR n - 1) * h) by (apply Rmult_le_pos; lra). lra. }
  assert (0 <= (1 + u)^n * h) by (apply Rmult_le_pos; [lra|exact Hh]).
  replace (2 * INR n * (1 + u)^n * h) with (2 * INR n * ((1 + u)^n * h)) by ring.
  replace ((1 + u)^n * (A + INR n * h + (INR n - 1) * h)) with ((1 + u)^n * A + (2 * INR n - 1) * ((1 + u)^n * h)) in H by ring. lra.
Qed.
