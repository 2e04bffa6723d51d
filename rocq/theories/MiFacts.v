From Coq Require Import String Psatz Permutation.
From Verif Require Import Base ExpModel ExpProofs MpModel MpProofs ClaheModel FitModel FitProofs MiModel MiSpec MiProofs MiMore MiNmi MiCmif.
Open Scope R_scope.

Lemma spans_min l lo hi : spans l lo hi -> minl l = lo /\ maxl l = hi /\ l <> [].
Proof.
  intros [A [B C]]. assert (N : l <> []) by (intros ->; exact A). destruct (minl_spec l N) as [M1 M2]. destruct (maxl_spec l N) as [M3 M4]. rewrite Forall_forall in C.
  repeat split; [| |exact N]; apply Rle_antisym; [apply M2, A|apply C, M1|apply C, M3|apply M4, B].
Qed.
Lemma spans_rescaled l lo hi : spans l lo hi -> lo < hi -> rescaled true l = Some (map (fun x => (x - lo) / (hi - lo)) l).
Proof. intros S0 L. destruct (spans_min _ _ _ S0) as [<- [<- N]]. unfold rescaled. destruct l; [congruence|]. destruct (Req_EM_T (maxl (r :: l)) (minl (r :: l))); [lra|reflexivity]. Qed.
Lemma spans_exists l : l <> [] -> spans l (minl l) (maxl l).
Proof. intros N. destruct (minl_spec l N) as [M1 M2]. destruct (maxl_spec l N) as [M3 M4]. repeat split; auto. apply Forall_forall. auto. Qed.
Lemma scaled_cells n alo ahi blo bhi a b cs : alo < ahi -> blo < bhi -> Forall (fun x => alo <= x <= ahi) a -> Forall (fun x => blo <= x <= bhi) b ->
  (scaled_bins n alo ahi blo bhi a b cs <-> List.length a = List.length b /\ cs = combine (map (long_bin n) (map (fun x => (x - alo) / (ahi - alo)) a)) (map (long_bin n) (map (fun x => (x - blo) / (bhi - blo)) b))).
Proof.
  intros LA LB. assert (G : forall lo hi x z, lo < hi -> lo <= x <= hi -> (IZR z <= (x - lo) / (hi - lo) * INR n * (1 - 1/1000000) < IZR z + 1 <-> long_bin n ((x - lo) / (hi - lo)) = z)).
  { intros lo hi x z D X. assert (P : 0 <= (x - lo) / (hi - lo)) by (apply Rmult_le_pos; [lra|left; apply Rinv_0_lt_compat; lra]). unfold long_bin. assert (Q := pos_INR n). rewrite truncZ_floor by (apply Rmult_le_pos; [apply Rmult_le_pos; assumption|lra]).
    replace (1 - 1/1000000) with (999999/1000000) by field. split; [intros; apply floor_unique; lra|]. intros <-. destruct (floor_spec ((x - lo) / (hi - lo) * INR n * (999999 / 1000000))). lra. }
  revert b cs. induction a as [|x a IH]; intros b cs FA FB.
  - split; [intros P; inversion P; split; reflexivity|]. intros [E ->]. destruct b; [constructor|discriminate].
  - inversion FA as [|? ? FA1 FA2]; subst. split.
    + intros P. inversion P; subst. inversion FB as [|? ? FB1 FB2]; subst. destruct (proj1 (IH _ _ FA2 FB2) ltac:(eassumption)) as [E ->]. cbn. split; [lia|]. do 2 f_equal; symmetry; apply G; assumption.
    + intros [E ->]. destruct b as [|y b]; [discriminate|]. inversion FB as [|? ? FB1 FB2]; subst. cbn. constructor; [apply G; auto|apply G; auto|]. apply IH; [assumption|assumption|]. split; [cbn in E; lia|reflexivity].
Qed.
Lemma mutual_information_scaled a b n alo ahi blo bhi : (1 <= n)%nat -> spans a alo ahi -> spans b blo bhi -> alo < ahi -> blo < bhi -> List.length a = List.length b ->
  exists cells, scaled_bins n alo ahi blo bhi a b cells /\ cells <> [] /\ Forall (fun p => (0 <= fst p < Z.of_nat n /\ 0 <= snd p < Z.of_nat n)%Z) cells /\
  mutual_information a b n true = Some (H Z.eq_dec (map fst cells) + H Z.eq_dec (map snd cells) - H Z.eq_dec (map (code n) cells)).
Proof.
  intros N SA SB LA LB E. destruct (mutual_information_value a b n true _ _ N E (spans_rescaled _ _ _ SA LA) (spans_rescaled _ _ _ SB LB)) as [C1 [C2 [C3 [C4 C5]]]]; [discriminate|].
  eexists. split; [|split; [exact C1|split; [exact C4|exact C5]]]. apply scaled_cells; try assumption; [apply SA|apply SB|]. split; [exact E|reflexivity].
Qed.
Lemma scaled_unique n alo ahi blo bhi a b c c' : scaled_bins n alo ahi blo bhi a b c -> scaled_bins n alo ahi blo bhi a b c' -> c = c'.
Proof.
  intros P. revert c'. induction P; intros c' Q; inversion Q; subst; [reflexivity|]. f_equal; [|auto]. f_equal; repeat match goal with B : IZR _ <= _ < _ |- _ => apply floor_unique in B end; congruence.
Qed.
Lemma spans_affine l lo hi s t : 0 < s -> spans l lo hi -> spans (map (fun x => s * x + t) l) (s * lo + t) (s * hi + t).
Proof.
  intros P [A [B C]]. repeat split; [apply (in_map (fun x => s * x + t)), A|apply (in_map (fun x => s * x + t)), B|]. apply Forall_forall. intros y Y. apply in_map_iff in Y as [x [<- X]]. rewrite Forall_forall in C. assert (Q := C x X). cbv beta in Q. nra.
Qed.
Lemma rescaled_affine l s t : 0 < s -> rescaled true (map (fun x => s * x + t) l) = rescaled true l.
Proof.
  intros P. destruct l as [|x l]; [reflexivity|]. assert (N : x :: l <> []) by discriminate. assert (S0 := spans_exists _ N). assert (S1 := spans_affine _ _ _ s t P S0).
  set (lo := minl (x :: l)) in *. set (hi := maxl (x :: l)) in *. assert (LH : lo <= hi). { destruct S0 as [A [B C]]. rewrite Forall_forall in C. apply C, A. }
  destruct (Req_EM_T hi lo) as [E|E].
  - destruct (spans_min _ _ _ S1) as [M1 [M2 N1]]. transitivity (@None (list R)).
    + unfold rescaled. cbn [map] in *. rewrite M1, M2. destruct (Req_EM_T (s * hi + t) (s * lo + t)); [reflexivity|nra].
    + unfold rescaled. fold lo hi. destruct (Req_EM_T hi lo); [reflexivity|contradiction].
  - rewrite (spans_rescaled _ _ _ S0) by lra. rewrite (spans_rescaled _ _ _ S1) by nra. f_equal. rewrite map_map. apply map_ext. intros y. field. split; nra.
Qed.
Lemma self_code n l : (1 <= n)%nat -> Forall (fun p : Z * Z => fst p = snd p) l -> H Z.eq_dec (map (code n) l) = H Z.eq_dec (map fst l) /\ H Z.eq_dec (map snd l) = H Z.eq_dec (map fst l).
Proof.
  intros N F. assert (E2 : map snd l = map fst l) by (apply map_ext_in; intros p P; rewrite Forall_forall in F; symmetry; apply F, P). rewrite E2. split; [|reflexivity].
  transitivity (H Z.eq_dec (map (fun z => (z * Z.of_nat n)%Z) (map fst l))).
  - f_equal. rewrite map_map. apply map_ext_in. intros p P. rewrite Forall_forall in F. unfold code. rewrite <- (F p P). lia.
  - apply H_inj. intros x y _ _. nia.
Qed.
Lemma scaled_diag n lo hi a cs : scaled_bins n lo hi lo hi a a cs -> Forall (fun p : Z * Z => fst p = snd p) cs.
Proof.
  remember a as b eqn:E. intros P. rewrite E in P at 1. revert E. assert (G : forall u v c, scaled_bins n lo hi lo hi u v c -> u = v -> Forall (fun p : Z * Z => fst p = snd p) c).
  { intros u v c Q. induction Q as [|x y k l xs ys cs' A B Q IH]; intros E; [constructor|]. injection E as -> ->. constructor; [|apply IH; reflexivity]. cbn. rewrite <- (floor_unique _ _ A). apply floor_unique. exact B. }
  intros E. apply (G _ _ _ P). congruence.
Qed.
(** ---- pairs ---- *)
Lemma diag_H l : Forall (fun p : Z * Z => fst p = snd p) l -> H pair_dec l = H Z.eq_dec (map fst l) /\ map snd l = map fst l.
Proof.
  intros F. rewrite Forall_forall in F. split; [|apply map_ext_in; intros p P; symmetry; apply F, P].
  symmetry. apply H_inj. intros [a b] [c d] P Q E. assert (X := F _ P). assert (Y := F _ Q). cbn in *. congruence.
Qed.
Definition swap (p : Z * Z) : Z * Z := (snd p, fst p).
Lemma swap_I2 l : I2 (map swap l) = I2 l /\ H pair_dec (map swap l) = H pair_dec l.
Proof.
  assert (A : H pair_dec (map swap l) = H pair_dec l) by (apply H_inj; intros [a b] [c d] _ _ E; injection E as -> ->; reflexivity). split; [|exact A].
  unfold I2. rewrite A, !map_map. cbn [swap fst snd]. rewrite (map_ext (fun x : Z * Z => fst (swap x)) snd), (map_ext (fun x : Z * Z => snd (swap x)) fst) by reflexivity. ring.
Qed.
Lemma paired_swap n m x y cs : paired_bins n m x y cs -> paired_bins m n y x (map swap cs).
Proof. intros P. induction P; [constructor|]. cbn. constructor; assumption. Qed.
Lemma paired_diag n x cs : paired_bins n n x x cs -> Forall (fun p : Z * Z => fst p = snd p) cs.
Proof.
  assert (G : forall u v c, paired_bins n n u v c -> u = v -> Forall (fun p : Z * Z => fst p = snd p) c).
  { intros u v c Q. induction Q as [|a b k l xs ys cs' A B Q IH]; intros E; [constructor|]. injection E as -> ->. constructor; [|apply IH; reflexivity]. cbn. apply bin_floor in A, B. congruence. }
  intros P. exact (G _ _ _ P eq_refl).
Qed.
Lemma paired_exists n m x y : List.length x = List.length y -> exists cs, paired_bins n m x y cs.
Proof. intros E. eexists. apply paired_cells. split; [exact E|reflexivity]. Qed.
Lemma paired_nil n m x y : paired_bins n m x y [] -> x = [].
Proof. intros P. inversion P. reflexivity. Qed.
(** entropies on concrete samples *)
Lemma ln2_pos : 0 < ln 2. Proof. rewrite <- ln_1. apply ln_increasing; lra. Qed.
Lemma H_pos_two a b : a <> b -> H Z.eq_dec [a; b] = ln 2.
Proof.
  intros N. rewrite <- entropy_H by discriminate. unfold entropy, frequency. cbn [nodup in_dec List.length]. destruct (in_dec Z.eq_dec a [b]) as [[Q|[]]|_]; [congruence|]. cbn [nodup in_dec map fold_right count_occ].
  destruct (Z.eq_dec a a); [|congruence]. destruct (Z.eq_dec b a); [congruence|]. cbn [in_dec list_rec list_rect nodup map fold_right count_occ]. destruct (Z.eq_dec a b); [congruence|]. destruct (Z.eq_dec b b); [|congruence].
  cbn [INR]. replace (1 / (1 + 1)) with (/ 2) by field. rewrite ln_Rinv by lra. field.
Qed.
