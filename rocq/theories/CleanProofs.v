(** Proofs about standard_clean. *)
From Coq Require Import String.
From Verif Require Import Base BaseFacts ExpModel ExpProofs MpModel MpSpec MpProofs ClaheModel ClaheProofs BlurModel BlurSpec BlurProofs NlparModel NlparSpec NlparProofs CleanModel CleanSpec.
Open Scope R_scope.

Lemma after_minmax_eq s : after_minmax s = Some (with_pats s (map minmax (e_pats s)) false).
Proof. reflexivity. Qed.
Lemma minmax_length p : List.length (minmax p) = List.length p.
Proof. apply map_length. Qed.
(** minmax ignores a constant *)
Lemma fold_min_shift c r : forall x, fold_right Rmin (x + c) (map (fun y => y + c) r) = fold_right Rmin x r + c.
Proof. induction r as [|y r IH]; intros x; cbn [map fold_right]; [reflexivity|]. rewrite IH. generalize (fold_right Rmin x r) as a. intros a. unfold Rmin. destruct (Rle_dec (y + c) (a + c)), (Rle_dec y a); lra. Qed.
Lemma fold_max_shift c r : forall x, fold_right Rmax (x + c) (map (fun y => y + c) r) = fold_right Rmax x r + c.
Proof. induction r as [|y r IH]; intros x; cbn [map fold_right]; [reflexivity|]. rewrite IH. generalize (fold_right Rmax x r) as a. intros a. unfold Rmax. destruct (Rle_dec (y + c) (a + c)), (Rle_dec y a); lra. Qed.
Lemma minmax_shift c p : minmax (map (fun x => x + c) p) = minmax p.
Proof.
  destruct p as [|x r]; [reflexivity|]. unfold minmax. rewrite map_map.
  assert (A : minl (map (fun x => x + c) (x :: r)) = minl (x :: r) + c) by (cbn [map minl]; apply fold_min_shift).
  assert (B : maxl (map (fun x => x + c) (x :: r)) = maxl (x :: r) + c) by (cbn [map maxl]; apply fold_max_shift).
  rewrite A, B. apply map_ext. intros y. replace (y + c - (minl (x :: r) + c)) with (y - minl (x :: r)) by ring. replace (1/10000 + (maxl (x :: r) + c) - (minl (x :: r) + c)) with (1/10000 + maxl (x :: r) - minl (x :: r)) by ring. reflexivity.
Qed.
Lemma minmax_constant p v : p <> [] -> (forall x, In x p -> x = v) -> forall y, In y (minmax p) -> y = 0.
Proof.
  intros N H y Y. unfold minmax in Y. apply in_map_iff in Y. destruct Y as [x [<- X]]. destruct (minl_spec p N) as [A _]. rewrite (H _ A), (H _ X). unfold Rdiv. ring.
Qed.
Lemma traverse_some {A B} (f : A -> option B) l : (forall x, In x l -> exists y, f x = Some y) -> exists ys, traverse f l = Some ys.
Proof.
  induction l as [|x r IH]; intros H; [exists []; reflexivity|]. destruct (H x (or_introl eq_refl)) as [y Y]. destruct IH as [ys YS]; [intros z Z; apply H; right; exact Z|]. exists (y :: ys). cbn [traverse]. rewrite Y, YS. reflexivity.
Qed.
Lemma traverse_in {A B} (f : A -> option B) l : forall ys, traverse f l = Some ys -> List.length ys = List.length l /\ (forall y, In y ys -> exists x, In x l /\ f x = Some y) /\ forall i dx dy, (i < List.length l)%nat -> f (nth i l dx) = Some (nth i ys dy).
Proof.
  induction l as [|x r IH]; intros ys H; cbn [traverse] in H.
  - injection H as <-. repeat split; [intros y []|]. intros i dx dy I. simpl in I. lia.
  - destruct (f x) as [y|] eqn:Y; [|discriminate]. destruct (traverse f r) as [zs|] eqn:Z; [|discriminate]. injection H as <-. destruct (IH zs eq_refl) as [L [I N]]. split; [simpl; congruence|]. split.
    + intros w [<-|W]; [exists x; split; [left; reflexivity|exact Y]|]. destruct (I w W) as [q [Q1 Q2]]. exists q. split; [right; exact Q1|exact Q2].
    + intros i dx dy Hi. destruct i as [|i]; [exact Y|]. cbn [nth]. apply N. simpl in Hi. lia.
Qed.
Lemma px_in_list h w p r c : List.length p = (h * w)%nat -> (r < h)%nat -> (c < w)%nat -> In (px (mkI h w p) r c) p.
Proof. intros L R0 C0. unfold px. cbn [i_w i_px]. apply nth_In. rewrite L. nia. Qed.
Lemma clahe_pattern h w p cl nb g : (1 <= nb)%nat -> (1 <= g)%nat -> (g <= h)%nat -> (g <= w)%nat -> List.length p = (h * w)%nat -> (forall x, In x p -> 0 <= x <= 1) ->
  exists m, clahe (mkI h w p) cl nb g g = Some m /\ List.length (i_px m) = (h * w)%nat.
Proof.
  intros N G H W L U. destruct (clahe_ok (mkI h w p) cl nb g g) as [m M]; try assumption.
  - intros r c R0 C0. apply U. apply px_in_list; assumption.
  - exists m. split; [exact M|]. destruct (clahe_some _ _ _ _ _ _ M) as [_ [_ [E _]]]. exact E.
Qed.
Lemma map_idx_length f p : List.length (map_idx f p) = List.length p.
Proof. unfold map_idx. rewrite map_length, seq_length. reflexivity. Qed.
Definition cleaned_first (s : exp_state) : list row := map minmax (map (map_idx (fun j x => x - pixel_mean (e_pats s) j)) (e_pats s)).
Lemma standard_clean_eq s : standard_clean s = match traverse (fun p => match clahe (mkI (e_h s) (e_w s) p) 40 64 4 4 with Some m => Some (i_px m) | None => None end) (cleaned_first s) with
  | Some ps => Some (with_pats s (map minmax ps) false) | None => None end.
Proof. unfold standard_clean. rewrite after_minmax_eq. unfold contrast_enhance_clahe, subtract_overall_background, with_pats. cbn [e_h e_w e_pats]. fold (cleaned_first s). destruct (traverse _ (cleaned_first s)) as [ps|]; [|reflexivity]. rewrite after_minmax_eq. reflexivity. Qed.
Lemma cleaned_first_in s p : well_formed s -> (0 < e_h s * e_w s)%nat -> In p (cleaned_first s) -> List.length p = (e_h s * e_w s)%nat /\ forall x, In x p -> 0 <= x < 1.
Proof.
  intros [_ W] P I. unfold cleaned_first in I. apply in_map_iff in I. destruct I as [q [<- Q]]. apply in_map_iff in Q. destruct Q as [q' [<- Q']]. rewrite minmax_length, map_idx_length, (W q' Q'). split; [reflexivity|].
  apply minmax_range. intros E. apply (f_equal (@List.length R)) in E. rewrite map_idx_length, (W q' Q') in E. simpl in E. lia.
Qed.
Theorem clean_ok s : well_formed s -> (4 <= e_h s)%nat -> (4 <= e_w s)%nat ->
  exists s', standard_clean s = Some s' /\ e_n s' = e_n s /\ e_h s' = e_h s /\ e_w s' = e_w s /\ e_spatial s' = e_spatial s /\ e_ori s' = e_ori s /\ e_coords s' = e_coords s /\ e_phases s' = e_phases s /\
    forall p, In p (e_pats s') -> List.length p = (e_h s * e_w s)%nat /\ (forall x, In x p -> 0 <= x < 1) /\ In 0 p.
Proof.
  intros W H1 H2. assert (P : (0 < e_h s * e_w s)%nat) by nia. rewrite standard_clean_eq.
  destruct (traverse_some (fun p => match clahe (mkI (e_h s) (e_w s) p) 40 64 4 4 with Some m => Some (i_px m) | None => None end) (cleaned_first s)) as [ps PS].
  - intros p Hp. destruct (cleaned_first_in s p W P Hp) as [L U]. destruct (clahe_pattern (e_h s) (e_w s) p 40 64 4) as [m [M _]]; try lia; try assumption; [intros x X; destruct (U x X); lra|]. exists (i_px m). rewrite M. reflexivity.
  - rewrite PS. eexists. split; [reflexivity|]. unfold with_pats, e_n. cbn. destruct (traverse_in _ _ _ PS) as [Lp [Ip _]].
    split; [rewrite map_length, Lp; unfold cleaned_first; rewrite !map_length; reflexivity|]. repeat (split; [reflexivity|]).
    intros p Hp. apply in_map_iff in Hp. destruct Hp as [q [<- Q]]. destruct (Ip q Q) as [p0 [I0 E0]]. destruct (cleaned_first_in s p0 W P I0) as [L U]. destruct (clahe_pattern (e_h s) (e_w s) p0 40 64 4) as [m [M LM]]; try lia; try assumption; [intros x X; destruct (U x X); lra|].
    rewrite M in E0. injection E0 as <-. assert (N : i_px m <> []) by (intros E; rewrite E in LM; simpl in LM; lia). rewrite minmax_length. split; [exact LM|]. split; [apply minmax_range|apply minmax_zero]; exact N.
Qed.
(** background invariance *)
Lemma nth_map_seq (f : nat -> R) n j : (j < n)%nat -> nth j (map f (seq 0 n)) 0 = f j.
Proof. intros H. rewrite (nth_indep _ 0 (f 0%nat)) by (rewrite map_length, seq_length; exact H). rewrite map_nth, seq_nth by exact H. reflexivity. Qed.
Lemma suml_plus {A} (f g : A -> R) l : suml (map (fun x => f x + g x) l) = suml (map f l) + suml (map g l).
Proof. induction l as [|x r IH]; unfold suml in *; cbn [map fold_right]; [ring|rewrite IH; ring]. Qed.
Lemma suml_nth (l : list row) (f : row -> R) d : suml (map f l) = suml (map (fun i => f (nth i l d)) (seq 0 (List.length l))).
Proof.
  apply f_equal. revert f. induction l as [|x r IH]; intros f; [reflexivity|]. cbn [List.length seq map nth]. f_equal. rewrite <- seq_shift, map_map. apply IH.
Qed.
Lemma suml_const {A} (c : R) (l : list A) : suml (map (fun _ => c) l) = INR (List.length l) * c.
Proof. induction l as [|x r IH]; unfold suml in *; [simpl; ring|]. change (List.length (x :: r)) with (S (List.length r)). rewrite S_INR. cbn [map fold_right]. rewrite IH. ring. Qed.
Theorem clean_background s s' : well_formed s -> same_up_to_background s s' -> cleaned_first s' = cleaned_first s.
Proof.
  intros [NE W] [H1 [H2 [L [B [c E]]]]]. set (n := List.length (e_pats s)) in *. assert (Np : (0 < n)%nat) by (unfold n; destruct (e_pats s); [congruence|simpl; lia]).
  assert (Nr : INR n <> 0) by (apply not_0_INR; lia).
  set (cb := suml (map c (seq 0 n)) / INR n).
  assert (M : forall j, (j < e_h s * e_w s)%nat -> pixel_mean (e_pats s') j = pixel_mean (e_pats s) j + B j + cb).
  { intros j J. unfold pixel_mean, meanl. rewrite !map_length. pose proof (suml_nth (e_pats s') (fun p => nth j p 0) []) as SA. pose proof (suml_nth (e_pats s) (fun p => nth j p 0) []) as SB. unfold row in *. rewrite SA, SB. rewrite L. fold n.
    rewrite (map_ext_in _ (fun i => (nth j (nth i (e_pats s) []) 0 + B j) + c i)).
    - rewrite suml_plus, suml_plus, suml_const, seq_length. unfold cb. match goal with |- (?a + _ + ?c1) / _ = ?b / _ + _ + ?c2 / _ => change b with a; change c2 with c1; generalize a, c1 end. intros. field. exact Nr.
    - intros i I. apply in_seq in I. pose proof (E i (proj2 I)) as Ei. cbn beta. unfold row in *. rewrite Ei. clear SA SB Ei. assert (Li : List.length (nth i (e_pats s) []) = (e_h s * e_w s)%nat) by (apply W, nth_In; exact (proj2 I)).
      rewrite nth_map_seq by (unfold row in *; lia). reflexivity. }
  unfold cleaned_first. rewrite !map_map. apply (nth_ext _ _ [] []); [rewrite !map_length; exact L|]. intros i I. rewrite map_length in I. rewrite L in I.
  set (g' := fun x : row => minmax (map_idx (fun j x0 => x0 - pixel_mean (e_pats s') j) x)). set (g := fun x : row => minmax (map_idx (fun j x0 => x0 - pixel_mean (e_pats s) j) x)).
  rewrite (nth_indep (map g' _) [] (g' [])) by (rewrite map_length, L; exact I). rewrite map_nth. rewrite (nth_indep (map g _) [] (g [])) by (rewrite map_length; exact I). rewrite map_nth.
  unfold g, g'. rewrite E by exact I. set (p := nth i (e_pats s) []). assert (Lp : List.length p = (e_h s * e_w s)%nat) by (apply W, nth_In; exact I).
  rewrite <- (minmax_shift (c i - cb) (map_idx (fun j x => x - pixel_mean (e_pats s) j) p)). f_equal. unfold map_idx. rewrite map_length, seq_length, map_map. apply map_ext_in. intros j J. apply in_seq in J.
  rewrite nth_map_seq by (unfold row in *; lia). rewrite M by (unfold row in *; lia). cbn. ring.
Qed.
Theorem clean_same_background s s' : well_formed s -> same_up_to_background s s' -> forall out out', standard_clean s = Some out -> standard_clean s' = Some out' -> e_pats out' = e_pats out.
Proof.
  intros W S0 out out'. rewrite !standard_clean_eq, (clean_background s s' W S0). destruct S0 as [-> [-> _]]. destruct (traverse _ _) as [ps|]; [|discriminate]. intros [= <-] [= <-]. reflexivity.
Qed.
(** one pattern only *)
Theorem clean_single s p s' : e_pats s = [p] -> List.length p = (e_h s * e_w s)%nat -> (4 <= e_h s)%nat -> (4 <= e_w s)%nat -> standard_clean s = Some s' -> e_pats s' = [repeat 0 (e_h s * e_w s)].
Proof.
  intros E L H1 H2. assert (W : well_formed s) by (unfold well_formed; rewrite E; split; [discriminate|intros q [<-|[]]; exact L]). assert (P : (0 < e_h s * e_w s)%nat) by nia.
  assert (C : cleaned_first s = [minmax (map_idx (fun j x => x - pixel_mean [p] j) p)]) by (unfold cleaned_first; rewrite E; reflexivity).
  set (z := map_idx (fun j x => x - pixel_mean [p] j) p) in *. assert (Lz : List.length z = (e_h s * e_w s)%nat) by (unfold z; rewrite map_idx_length; exact L). assert (Nz : z <> []) by (intros X; rewrite X in Lz; simpl in Lz; lia).
  assert (Z : forall x, In x z -> x = 0).
  { intros x X. unfold z, map_idx in X. apply in_map_iff in X. destruct X as [j [<- J]]. unfold pixel_mean, meanl, suml. cbn. field. }
  assert (Zm : forall x, In x (minmax z) -> x = 0) by (apply minmax_constant with (v := 0); assumption).
  rewrite standard_clean_eq, C. cbn [traverse]. destruct (clahe (mkI (e_h s) (e_w s) (minmax z)) 40 64 4 4) as [m|] eqn:M; [|discriminate]. intros [= <-]. cbn [with_pats e_pats map]. f_equal.
  assert (Lm : List.length (minmax z) = (e_h s * e_w s)%nat) by (rewrite minmax_length; exact Lz).
  destruct (clahe_constant (mkI (e_h s) (e_w s) (minmax z)) 40 64 4 4 m 0) as [d D]; try lia; try exact M.
  - intros r c R0 C0. rewrite (Zm _ (px_in_list (e_h s) (e_w s) (minmax z) r c Lm R0 C0)). lra.
  - destruct (clahe_some _ _ _ _ _ _ M) as [A [B [LL _]]]. cbn [i_h i_w] in *.
    assert (K : forall x, In x (i_px m) -> x = d).
    { intros x X. apply (In_nth _ _ 0) in X. destruct X as [k [Hk <-]]. rewrite LL in Hk. assert (Wp : (0 < e_w s)%nat) by lia. specialize (D (k / e_w s)%nat (k mod e_w s)%nat). rewrite A, B in D. unfold px in D. rewrite B in D.
      assert (Q : (k / e_w s * e_w s + k mod e_w s = k)%nat) by (rewrite (Nat.div_mod k (e_w s)) at 3 by lia; lia). rewrite Q in D. destruct D; [apply Nat.div_lt_upper_bound; lia|apply Nat.mod_upper_bound; lia|lra]. }
    assert (Nm : i_px m <> []) by (intros X; rewrite X in LL; simpl in LL; lia).
    pose proof (minmax_constant _ d Nm K) as F. assert (LF : List.length (minmax (i_px m)) = (e_h s * e_w s)%nat) by (rewrite minmax_length; exact LL). rewrite <- LF. clear - F. induction (minmax (i_px m)) as [|x r IH]; [reflexivity|]. cbn [List.length repeat]. rewrite (F x (or_introl eq_refl)). f_equal. apply IH. intros y Y. apply F. right. exact Y.
Qed.
