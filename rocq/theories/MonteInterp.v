(** Proofs: interpolation and symmetrisation of histograms, witnesses for the simulation. *)
From Verif Require Import Base QuatModel QuatProofs SphereModel SphereProofs MpModel MpProofs MonteModel MonteSpec MonteProofs MonteLoop.

Lemma inc_tail a r : increasing (a :: r) -> increasing r.
Proof. intros H i j L. apply (H (S i) (S j)). cbn [List.length]. lia. Qed.
Lemma ss_spec xp x : (forall j, (j < searchsorted xp x)%nat -> nth j xp 0 < x) /\ ((searchsorted xp x < List.length xp)%nat -> x <= nth (searchsorted xp x) xp 0) /\ (searchsorted xp x <= List.length xp)%nat.
Proof.
  induction xp as [|a r IH]; cbn [searchsorted List.length]; [split; [intros; lia|split; lia]|]. destruct (Rlt_dec a x).
  - destruct IH as [A [B C]]. split; [|split].
    + intros [|j] J; cbn [nth]; [assumption|apply A; lia].
    + intros L. cbn [nth]. apply B. lia.
    + lia.
  - split; [intros; lia|]. split; [intros _; cbn [nth]; lra|lia].
Qed.
Lemma ss_unique xp x k : (k <= List.length xp)%nat -> (forall j, (j < k)%nat -> nth j xp 0 < x) -> ((k < List.length xp)%nat -> x <= nth k xp 0) -> searchsorted xp x = k.
Proof.
  intros K A B. destruct (ss_spec xp x) as [A' [B' C']]. destruct (Nat.lt_trichotomy (searchsorted xp x) k) as [L|[E|L]]; [|exact E|].
  - specialize (A _ L). specialize (B' ltac:(lia)). lra.
  - specialize (A' _ L). specialize (B ltac:(lia)). lra.
Qed.
Lemma slope_line xp fp i x : nth i xp 0 < nth (S i) xp 0 -> slope xp fp i * x + offset xp fp i = line_between xp fp i x.
Proof. intros H. unfold slope, offset, line_between, slope. rewrite Nat.add_1_r. field. lra. Qed.
Lemma line_left xp fp i : line_between xp fp i (nth i xp 0) = nth i fp 0.
Proof. unfold line_between, Rdiv. ring. Qed.
Lemma line_right xp fp i : nth i xp 0 < nth (i + 1) xp 0 -> line_between xp fp i (nth (i + 1) xp 0) = nth (i + 1) fp 0.
Proof. intros H. unfold line_between. field. lra. Qed.
Lemma ss_in xp x k : increasing xp -> (k + 1 < List.length xp)%nat -> nth k xp 0 <= x <= nth (k + 1) xp 0 ->
  (x = nth k xp 0 /\ searchsorted xp x = k) \/ (nth k xp 0 < x /\ searchsorted xp x = (k + 1)%nat).
Proof.
  intros I K X. destruct (Rle_lt_or_eq_dec (nth k xp 0) x (proj1 X)) as [L|E].
  - right. split; [exact L|]. apply ss_unique; [lia| |intros _; lra]. intros j J. destruct (Nat.eq_dec j k) as [->|N]; [exact L|]. pose proof (I j k ltac:(lia)). lra.
  - left. split; [auto|]. apply ss_unique; [lia| |intros _; lra]. intros j J. pose proof (I j k ltac:(lia)). lra.
Qed.
Lemma interp_const_in xp fp x k : increasing xp -> (k + 1 < List.length xp)%nat -> nth k xp 0 <= x <= nth (k + 1) xp 0 -> interp XConst xp fp x = Some (line_between xp fp k x).
Proof.
  intros I K X. unfold interp. assert (H : forall i, (i + 1 < List.length xp)%nat -> nth i xp 0 < nth (S i) xp 0) by (intros; apply I; lia).
  destruct (ss_in xp x k I K X) as [[E SS]|[L SS]]; rewrite SS.
  - destruct (Nat.eqb_spec k 0) as [->|N]; [subst; rewrite line_left; reflexivity|]. rewrite (proj2 (Nat.leb_gt (List.length xp) k)) by lia. rewrite slope_line by (apply H; lia). subst x. rewrite line_left. f_equal.
    replace (nth k xp 0) with (nth (k - 1 + 1) xp 0) by (f_equal; lia). rewrite line_right; [f_equal; lia|]. rewrite Nat.add_1_r. apply H. lia.
  - rewrite (proj2 (Nat.eqb_neq (k + 1) 0)), (proj2 (Nat.leb_gt (List.length xp) (k + 1))) by lia. rewrite Nat.add_sub, slope_line by (apply H; lia). reflexivity.
Qed.
Lemma interp_const_out xp fp x : increasing xp -> (1 <= List.length xp)%nat -> (x <= nth 0 xp 0 -> interp XConst xp fp x = Some (nth 0 fp 0)) /\ (nth (List.length xp - 1) xp 0 < x -> interp XConst xp fp x = Some (nth (List.length xp - 1) fp 0)).
Proof.
  intros I N. unfold interp. split; intros X.
  - rewrite (ss_unique xp x 0) by (intros; lia || assumption). reflexivity.
  - rewrite (ss_unique xp x (List.length xp)); [|lia| |lia].
    + rewrite (proj2 (Nat.eqb_neq _ 0)), Nat.leb_refl by lia. reflexivity.
    + intros j J. destruct (Nat.eq_dec j (List.length xp - 1)) as [->|D]; [exact X|]. pose proof (I j (List.length xp - 1)%nat ltac:(lia)). lra.
Qed.
Lemma interp_linear_in xp fp x k : increasing xp -> (k + 1 < List.length xp)%nat -> nth k xp 0 <= x <= nth (k + 1) xp 0 -> interp XLinear xp fp x = Some (line_between xp fp k x).
Proof.
  intros I K X. unfold interp. assert (H : forall i, (i + 1 < List.length xp)%nat -> nth i xp 0 < nth (S i) xp 0) by (intros; apply I; lia).
  destruct (ss_in xp x k I K X) as [[E SS]|[L SS]]; rewrite SS; f_equal.
  - destruct k as [|k]; [replace (Nat.min (0 - 1) _) with 0%nat by lia; apply slope_line, H; lia|]. replace (Nat.min (S k - 1) (List.length xp - 2)) with k by lia. rewrite slope_line by (apply H; lia). subst x. rewrite line_left.
    replace (S k) with (k + 1)%nat by lia. rewrite line_right; [reflexivity|]. rewrite Nat.add_1_r. apply H. lia.
  - replace (Nat.min (k + 1 - 1) (List.length xp - 2)) with k by lia. apply slope_line, H. lia.
Qed.
Lemma interp_linear_out xp fp x : increasing xp -> (2 <= List.length xp)%nat -> (x <= nth 0 xp 0 -> interp XLinear xp fp x = Some (line_between xp fp 0 x)) /\ (nth (List.length xp - 1) xp 0 < x -> interp XLinear xp fp x = Some (line_between xp fp (List.length xp - 2) x)).
Proof.
  intros I N. unfold interp. assert (H : forall i, (i + 1 < List.length xp)%nat -> nth i xp 0 < nth (S i) xp 0) by (intros; apply I; lia). split; intros X; f_equal.
  - rewrite (ss_unique xp x 0) by (intros; lia || assumption). replace (Nat.min (0 - 1) _) with 0%nat by lia. apply slope_line, H. lia.
  - rewrite (ss_unique xp x (List.length xp)); [|lia| |lia].
    + replace (Nat.min (List.length xp - 1) (List.length xp - 2)) with (List.length xp - 2)%nat by lia. apply slope_line, H. lia.
    + intros j J. destruct (Nat.eq_dec j (List.length xp - 1)) as [->|D]; [exact X|]. pose proof (I j (List.length xp - 1)%nat ltac:(lia)). lra.
Qed.
(** the 'error' mode evaluates the line of the NEXT segment *)
Lemma interp_error_in xp fp x k : increasing xp -> (k + 1 < List.length xp)%nat -> nth k xp 0 < x <= nth (k + 1) xp 0 ->
  interp XError xp fp x = if Nat.eqb (k + 2) (List.length xp) then None else Some (line_between xp fp (k + 1) x).
Proof.
  intros I K X. unfold interp. destruct (ss_in xp x k I K ltac:(lra)) as [[E SS]|[L SS]]; [lra|]. rewrite SS. destruct (Nat.eqb_spec (k + 2) (List.length xp)) as [E|E].
  - rewrite (proj2 (Nat.leb_le _ _)) by lia. reflexivity.
  - rewrite (proj2 (Nat.leb_gt _ _)) by lia. f_equal. apply slope_line. apply I. lia.
Qed.
(** quadratic interpolation *)
Lemma lagrange_poly a b c x0 x1 x2 x : x0 <> x1 -> x0 <> x2 -> x1 <> x2 ->
  lagrange3 x0 x1 x2 (a * x0^2 + b * x0 + c) (a * x1^2 + b * x1 + c) (a * x2^2 + b * x2 + c) x = a * x^2 + b * x + c.
Proof. intros. unfold lagrange3. field. repeat split; lra. Qed.
Lemma quad_idx xp x : (3 <= List.length xp)%nat -> let i := Nat.min (Nat.max (searchsorted xp x) 1) (List.length xp - 2) in (1 <= i)%nat /\ (i + 1 < List.length xp)%nat.
Proof. intros N. cbv zeta. lia. Qed.
Lemma quad_exact xp fp x a b c const : increasing xp -> (3 <= List.length xp)%nat -> (forall i, (i < List.length xp)%nat -> nth i fp 0 = a * (nth i xp 0)^2 + b * nth i xp 0 + c) ->
  (const = false \/ nth 0 xp 0 <= x <= nth (List.length xp - 1) xp 0) -> interpquad const xp fp x = a * x^2 + b * x + c.
Proof.
  intros I N F X. unfold interpquad. destruct (quad_idx xp x N) as [J1 J2]. set (i := Nat.min _ _) in *.
  assert (V : lagrange3 (nth (i - 1) xp 0) (nth i xp 0) (nth (i + 1) xp 0) (nth (i - 1) fp 0) (nth i fp 0) (nth (i + 1) fp 0) x = a * x^2 + b * x + c).
  { rewrite !F by lia. pose proof (I (i - 1)%nat i ltac:(lia)). pose proof (I i (i + 1)%nat ltac:(lia)). apply lagrange_poly; lra. }
  destruct const; [|exact V]. destruct X as [X|X]; [discriminate|]. destruct (Rlt_dec x _); [lra|]. destruct (Rlt_dec _ x); [lra|]. exact V.
Qed.
Lemma quad_node xp fp k const : increasing xp -> (3 <= List.length xp)%nat -> (k < List.length xp)%nat -> interpquad const xp fp (nth k xp 0) = nth k fp 0.
Proof.
  intros I N K. unfold interpquad. assert (S : searchsorted xp (nth k xp 0) = k). { apply ss_unique; [lia| |lra]. intros j J. apply I. lia. }
  rewrite S. set (i := Nat.min (Nat.max k 1) (List.length xp - 2)).
  assert (V : lagrange3 (nth (i - 1) xp 0) (nth i xp 0) (nth (i + 1) xp 0) (nth (i - 1) fp 0) (nth i fp 0) (nth (i + 1) fp 0) (nth k xp 0) = nth k fp 0).
  { pose proof (I (i - 1)%nat i ltac:(lia)). pose proof (I i (i + 1)%nat ltac:(lia)). unfold lagrange3.
    assert (C : (k = i - 1 \/ k = i \/ k = i + 1)%nat) by lia. destruct C as [C|[C|C]]; rewrite C; field; lra. }
  assert (B : nth 0 xp 0 <= nth k xp 0 <= nth (List.length xp - 1) xp 0).
  { split; [destruct k; [lra|left; apply I; lia]|destruct (Nat.eq_dec k (List.length xp - 1)) as [->|]; [lra|left; apply I; lia]]. }
  destruct const; [|exact V]. destruct (Rlt_dec _ (nth 0 xp 0)); [lra|]. destruct (Rlt_dec (nth (List.length xp - 1) xp 0) _); [lra|]. exact V.
Qed.
(** symmetrisation *)
Lemma sym_len l : List.length (symmetrise l) = List.length l.
Proof. unfold symmetrise. rewrite map_length, combine_length, rev_length. lia. Qed.
Lemma sym_nth l i : (i < List.length l)%nat -> nth i (symmetrise l) 0 = (nth i l 0 + nth (List.length l - 1 - i) l 0) / 2.
Proof.
  intros I. unfold symmetrise. set (f := fun p : R * R => (fst p + snd p) / 2). rewrite (nth_indep _ 0 (f (0, 0))) by (rewrite map_length, combine_length, rev_length; lia).
  rewrite map_nth. unfold f. rewrite combine_nth by (rewrite rev_length; reflexivity). cbn [fst snd]. rewrite rev_nth by exact I. do 3 f_equal. lia.
Qed.
Lemma total_app l l' : total (l ++ l') = total l + total l'.
Proof. unfold total. induction l as [|a l IH]; cbn [app fold_right]; [ring|rewrite IH; ring]. Qed.
Lemma total_rev l : total (rev l) = total l.
Proof. induction l as [|a l IH]; [reflexivity|]. cbn [rev]. rewrite total_app, IH. unfold total. cbn [fold_right]. ring. Qed.
Lemma total_half : forall l l', List.length l = List.length l' -> total (map (fun p => (fst p + snd p) / 2) (combine l l')) = (total l + total l') / 2.
Proof. induction l as [|a l IH]; intros [|b l'] E; cbn [List.length] in E; try discriminate; unfold total in *; cbn [combine map fold_right fst snd]; [lra|]. rewrite IH by lia. lra. Qed.
Lemma sym_total l : total (symmetrise l) = total l.
Proof. unfold symmetrise. rewrite total_half by (rewrite rev_length; reflexivity). rewrite total_rev. lra. Qed.
Lemma sym_pal l : rev (symmetrise l) = symmetrise l.
Proof.
  apply nth_ext with (d := 0) (d' := 0); [apply rev_length|]. intros i I. rewrite rev_length in I. rewrite rev_nth by exact I. rewrite sym_len in *. rewrite !sym_nth by lia. rewrite Rplus_comm. do 3 f_equal; lia.
Qed.
