(** Properties of utils/mutual_information.py (C181-C189). *)
From Coq Require Import String Psatz.
From Verif Require Import Base KnnSpec KnnProofs ExpModel ExpProofs MpModel MpProofs ClaheModel FitModel FitProofs MiModel MiSpec MiProofs MiMore MiNmi MiCmif MiFacts MiWit MiWit2.
Open Scope R_scope.

(** C181: the result exists for every pair of non-constant images, all bin numbers are valid, and it is at least the mutual information of the bin pairs, which is at least 0 *)
Theorem c181_bound a b n alo ahi blo bhi cells :
  (1 <= n)%nat -> List.length a = List.length b -> spans a alo ahi -> spans b blo bhi -> alo < ahi -> blo < bhi -> scaled_bins n alo ahi blo bhi a b cells ->
  Forall (fun p => (0 <= fst p < Z.of_nat n /\ 0 <= snd p < Z.of_nat n)%Z) cells /\
  exists r, mutual_information a b n true = Some r /\ 0 <= mutual_info cells <= r /\ r <= entropyZ (map fst cells) + entropyZ (map snd cells).
Proof.
  intros N E SA SB LA LB B. destruct (mutual_information_scaled a b n alo ahi blo bhi N SA SB LA LB E) as [c [B' [NE [F V]]]]. rewrite (scaled_unique _ _ _ _ _ _ _ _ _ B B'). split; [exact F|]. eexists. split; [exact V|].
  assert (NF : map fst c <> []) by (intros Q; apply map_eq_nil in Q; contradiction). assert (NS : map snd c <> []) by (intros Q; apply map_eq_nil in Q; contradiction). assert (NC : map (code n) c <> []) by (intros Q; apply map_eq_nil in Q; contradiction).
  rewrite mutual_info_I2 by exact NE. unfold entropyZ. rewrite !entropy_H by assumption. assert (G := I2_nonneg c NE). unfold I2 in *. assert (M := H_merge pair_dec Z.eq_dec (code n) c NE). assert (P := H_nonneg Z.eq_dec (map (code n) c) NC). lra.
Qed.
Theorem c181_self a n lo hi cells : (1 <= n)%nat -> spans a lo hi -> lo < hi -> scaled_bins n lo hi lo hi a a cells -> mutual_information a a n true = Some (entropyZ (map fst cells)).
Proof.
  intros N S0 L B. destruct (mutual_information_scaled a a n lo hi lo hi N S0 S0 L L eq_refl) as [c [B' [NE [F V]]]]. rewrite (scaled_unique _ _ _ _ _ _ _ _ _ B B'). rewrite V. f_equal.
  destruct (self_code n c N (scaled_diag _ _ _ _ _ B')) as [-> ->]. unfold entropyZ. rewrite entropy_H by (intros Q; apply map_eq_nil in Q; contradiction). ring.
Qed.
(** brightness and contrast changes of either image leave the result alone *)
Theorem c181_affine a b n s t s' t' : 0 < s -> 0 < s' -> mutual_information (map (fun x => s * x + t) a) (map (fun x => s' * x + t') b) n true = mutual_information a b n true.
Proof. intros P P'. unfold mutual_information. rewrite !map_length, !rescaled_affine by assumption. reflexivity. Qed.
Example c181_case : spans wit_a 0 1 /\ spans wit_b 0 1 /\ scaled_bins 2 0 1 0 1 wit_a wit_b wit_cells /\ mutual_information wit_a wit_b 2 true = Some (ln 2 / 2) /\ 0 < ln 2 / 2.
Proof. split; [apply wit_spans|split; [apply wit_spans|split; [apply wit_bins|split; [apply wit_value|assert (P := ln2_pos); lra]]]]. Qed.

(** C182: the result is not the mutual information *)
Theorem c182_independent_zero_refuted :
  ~ (forall a b n alo ahi blo bhi cells r, (1 <= n)%nat -> spans a alo ahi -> spans b blo bhi -> alo < ahi -> blo < bhi -> scaled_bins n alo ahi blo bhi a b cells -> independent cells ->
     mutual_information a b n true = Some r -> r = 0).
Proof. intros C. destruct wit_spans as [SA SB]. assert (Q := C _ _ 2%nat _ _ _ _ _ _ ltac:(lia) SA SB ltac:(lra) ltac:(lra) wit_bins wit_independent wit_value). assert (P := ln2_pos). lra. Qed.
Theorem c182_symmetric_refuted : ~ (forall a b n, mutual_information a b n true = mutual_information b a n true).
Proof. intros C. destruct asy_value as [r [q [A [B [L _]]]]]. rewrite (C asy_a asy_b 3%nat), B in A. injection A as ->. lra. Qed.
Theorem c182_at_most_entropy_refuted :
  ~ (forall a b n alo ahi blo bhi cells r, (1 <= n)%nat -> spans a alo ahi -> spans b blo bhi -> alo < ahi -> blo < bhi -> scaled_bins n alo ahi blo bhi a b cells ->
     mutual_information a b n true = Some r -> r <= entropyZ (map snd cells)).
Proof. intros C. destruct asy_value as [r [q [A [B [L E]]]]]. destruct asy_spans as [SA SB]. assert (Q := C _ _ 3%nat _ _ _ _ _ _ ltac:(lia) SA SB ltac:(lra) ltac:(lra) (proj1 asy_bins) A). cbn [map snd] in Q. lra. Qed.

(** C183: binned_nmi without normalisation *)
Theorem c183_value x y bx by_ mode cells : (1 <= bx)%nat -> (1 <= by_)%nat -> below_one x -> below_one y -> x <> [] -> paired_bins bx by_ x y cells ->
  binned_nmi x y bx by_ mode "none" false = NmiOk (mutual_info cells / (if string_dec mode "bits" then ln 2 else 1)).
Proof.
  intros BX BY X Y N P. assert (NE : cells <> []) by (intros ->; apply paired_nil in P; contradiction). rewrite (proj1 (binned_value x y bx by_ mode "none" false cells BX BY X Y P) NE). rewrite mutual_info_I2 by exact NE. reflexivity.
Qed.
Theorem c183_zero_iff_independent x y bx by_ mode cells : (1 <= bx)%nat -> (1 <= by_)%nat -> below_one x -> below_one y -> x <> [] -> paired_bins bx by_ x y cells ->
  (binned_nmi x y bx by_ mode "none" false = NmiOk 0 <-> independent cells).
Proof.
  intros BX BY X Y N P. assert (NE : cells <> []) by (intros ->; apply paired_nil in P; contradiction). rewrite (c183_value x y bx by_ mode cells) by assumption. rewrite mutual_info_I2 by exact NE. rewrite <- (I2_zero_iff cells NE). fold (unit_of mode). assert (U := unit_pos mode). split.
  - intros E. injection E as E. apply (Rmult_eq_reg_r (/ unit_of mode)); [rewrite Rmult_0_l; exact E|apply Rinv_neq_0_compat; lra].
  - intros ->. f_equal. field. lra.
Qed.
Theorem c183_bounds x y bx by_ cells : (1 <= bx)%nat -> (1 <= by_)%nat -> below_one x -> below_one y -> x <> [] -> paired_bins bx by_ x y cells ->
  exists r, binned_nmi x y bx by_ "nats" "none" false = NmiOk r /\ 0 <= r /\ r <= entropyZ (map fst cells) /\ r <= entropyZ (map snd cells).
Proof.
  intros BX BY X Y N P. assert (NE : cells <> []) by (intros ->; apply paired_nil in P; contradiction). eexists. split; [apply c183_value; eassumption|]. destruct (string_dec "nats" "bits") as [D|_]; [discriminate|].
  assert (NF : map fst cells <> []) by (intros Q; apply map_eq_nil in Q; contradiction). assert (NS : map snd cells <> []) by (intros Q; apply map_eq_nil in Q; contradiction).
  rewrite mutual_info_I2 by exact NE. unfold entropyZ. rewrite !entropy_H by assumption. assert (A := I2_nonneg cells NE). assert (B := I2_le_a cells NE). assert (C := I2_le_b cells NE). lra.
Qed.
Theorem c183_symmetric x y bx by_ mode : (1 <= bx)%nat -> (1 <= by_)%nat -> below_one x -> below_one y -> x <> [] ->
  binned_nmi x y bx by_ mode "none" false = binned_nmi y x by_ bx mode "none" false.
Proof.
  intros BX BY X Y N. destruct (Nat.eq_dec (List.length x) (List.length y)) as [E|E].
  - destruct (paired_exists bx by_ x y E) as [cells P]. assert (NE : cells <> []) by (intros ->; apply paired_nil in P; contradiction). assert (NY : y <> []) by (intros ->; destruct x; [congruence|discriminate]).
    rewrite (c183_value x y bx by_ mode cells) by assumption. rewrite (c183_value y x by_ bx mode (map swap cells)) by (try assumption; apply paired_swap; exact P).
    rewrite !mutual_info_I2; [|intros Q; apply map_eq_nil in Q; contradiction|exact NE]. rewrite (proj1 (swap_I2 cells)). reflexivity.
  - unfold binned_nmi. rewrite (proj2 (Nat.eqb_neq _ _) E). rewrite (proj2 (Nat.eqb_neq (List.length y) (List.length x))) by lia. reflexivity.
Qed.
Theorem c183_unknown_mode x y bx by_ mode norm : (1 <= bx)%nat -> (1 <= by_)%nat -> below_one x -> below_one y -> x <> [] -> List.length x = List.length y -> ~ In norm ("none"%string :: norm_modes) ->
  binned_nmi x y bx by_ mode norm false = NmiValueError.
Proof.
  intros BX BY X Y N E I. destruct (paired_exists bx by_ x y E) as [cells P]. assert (NE : cells <> []) by (intros ->; apply paired_nil in P; contradiction). rewrite (proj1 (binned_value x y bx by_ mode norm false cells BX BY X Y P) NE). apply normalised_unknown. exact I.
Qed.
Example c183_case : paired_bins 2 2 [0; 1/2] [0; 1/2] [(0, 0); (1, 1)]%Z /\ below_one [0; 1/2] /\ binned_nmi [0; 1/2] [0; 1/2] 2 2 "bits" "none" false = NmiOk 1.
Proof.
  assert (B : paired_bins 2 2 [0; 1/2] [0; 1/2] [(0, 0); (1, 1)]%Z) by (repeat (apply pb_cons; [split; cbn; lra|split; cbn; lra|]); apply pb_nil). assert (L : below_one [0; 1/2]) by (repeat (apply Forall_cons; [lra|]); apply Forall_nil).
  split; [exact B|split; [exact L|]]. rewrite (c183_value _ _ 2 2 "bits" _ ltac:(lia) ltac:(lia) L L ltac:(discriminate) B). f_equal. destruct (string_dec "bits" "bits"); [|congruence]. rewrite mutual_info_I2 by discriminate. unfold I2.
  destruct (diag_H [(0, 0); (1, 1)]%Z) as [-> ->]; [repeat constructor|]. cbn [map fst]. rewrite H_pos_two by discriminate. assert (P := ln2_pos). field. lra.
Qed.

(** C184: the normalised values *)
Theorem c184_formulas x y bx by_ mode cells : (1 <= bx)%nat -> (1 <= by_)%nat -> below_one x -> below_one y -> x <> [] -> paired_bins bx by_ x y cells ->
  let I := mutual_info cells in let hx := entropyZ (map fst cells) in let hy := entropyZ (map snd cells) in let hj := entropy pair_dec cells in
  0 < hx -> 0 < hy ->
  binned_nmi x y bx by_ mode "Kvalseth Sum" false = NmiOk (2 * I / (hx + hy)) /\
  binned_nmi x y bx by_ mode "Kvalseth Min" false = NmiOk (I / Rmin hx hy) /\
  binned_nmi x y bx by_ mode "Kvalseth Max" false = NmiOk (I / Rmax hx hy) /\
  binned_nmi x y bx by_ mode "Yao" false = NmiOk (I / hj) /\
  binned_nmi x y bx by_ mode "Strehl-Ghosh" false = NmiOk (I / sqrt (hx * hy)).
Proof.
  intros BX BY X Y N P. cbv zeta. assert (NE : cells <> []) by (intros ->; apply paired_nil in P; contradiction).
  assert (NF : map fst cells <> []) by (intros Q; apply map_eq_nil in Q; contradiction). assert (NS : map snd cells <> []) by (intros Q; apply map_eq_nil in Q; contradiction).
  rewrite mutual_info_I2 by exact NE. unfold entropyZ. rewrite !entropy_H by assumption. intros HX HY. assert (HJ : H Z.eq_dec (map fst cells) <= H pair_dec cells) by (apply (H_merge pair_dec Z.eq_dec fst cells NE)).
  assert (U := unit_pos mode). set (u := unit_of mode) in *. set (hx := H Z.eq_dec (map fst cells)) in *. set (hy := H Z.eq_dec (map snd cells)) in *. set (hj := H pair_dec cells) in *.
  assert (G : forall norm, binned_nmi x y bx by_ mode norm false = normalised norm (I2 cells / u) (hx / u) (hy / u) (hj / u)) by (intros norm; exact (proj1 (binned_value x y bx by_ mode norm false cells BX BY X Y P) NE)).
  assert (Q : forall a b, b <> 0 -> quotient a b = NmiOk (a / b)) by (intros a b D; unfold quotient; destruct (Req_EM_T b 0); [contradiction|reflexivity]).
  assert (UI : 0 < / u) by (apply Rinv_0_lt_compat; exact U). rewrite !G. unfold normalised. cbn [string_dec]. repeat split.
  - replace (2 * (I2 cells / u)) with (2 * I2 cells / u) by (field; lra). replace (hx / u + hy / u) with ((hx + hy) / u) by (field; lra). cbn. rewrite quotient_div by exact U. apply Q. lra.
  - cbn. assert (E : Rmin (hx / u) (hy / u) = Rmin hx hy / u). { unfold Rmin, Rdiv. destruct (Rle_dec (hx * / u) (hy * / u)) as [L|L], (Rle_dec hx hy) as [L'|L']; try reflexivity; exfalso; nra. }
    rewrite E, quotient_div by exact U. apply Q. assert (0 < Rmin hx hy) by (apply Rmin_glb_lt; assumption). lra.
  - cbn. assert (E : Rmax (hx / u) (hy / u) = Rmax hx hy / u). { unfold Rmax, Rdiv. destruct (Rle_dec (hx * / u) (hy * / u)) as [L|L], (Rle_dec hx hy) as [L'|L']; try reflexivity; exfalso; nra. }
    rewrite E, quotient_div by exact U. apply Q. assert (hx <= Rmax hx hy) by apply Rmax_l. lra.
  - cbn. rewrite quotient_div by exact U. apply Q. lra.
  - cbn. assert (E : sqrt (hx / u * (hy / u)) = sqrt (hx * hy) / u). { replace (hx / u * (hy / u)) with (hx * hy * (/ u * / u)) by (field; lra). rewrite sqrt_mult_alt by nra. rewrite sqrt_square by lra. reflexivity. }
    rewrite E, quotient_div by exact U. apply Q. assert (0 < sqrt (hx * hy)) by (apply sqrt_lt_R0; nra). lra.
Qed.
Theorem c184_in_unit_interval x y bx by_ mode norm r : (1 <= bx)%nat -> (1 <= by_)%nat -> below_one x -> below_one y -> x <> [] -> List.length x = List.length y -> In norm norm_modes ->
  binned_nmi x y bx by_ mode norm false = NmiOk r -> 0 <= r <= 1.
Proof.
  intros BX BY X Y N E M R0. destruct (paired_exists bx by_ x y E) as [cells P]. assert (NE : cells <> []) by (intros ->; apply paired_nil in P; contradiction). rewrite (proj1 (binned_value x y bx by_ mode norm false cells BX BY X Y P) NE) in R0.
  assert (U := unit_pos mode). assert (D : forall a b, a <= b -> a / unit_of mode <= b / unit_of mode) by (intros a b L; apply Rmult_le_compat_r; [left; apply Rinv_0_lt_compat; exact U|exact L]).
  refine (normalised_01 norm _ _ _ _ r _ _ _ _ _ M R0).
  - apply Rmult_le_pos; [apply I2_nonneg; exact NE|left; apply Rinv_0_lt_compat; exact U].
  - apply D, I2_le_a. exact NE.
  - apply D, I2_le_b. exact NE.
  - apply D. apply (H_merge pair_dec Z.eq_dec fst cells NE).
  - apply D. apply (H_merge pair_dec Z.eq_dec snd cells NE).
Qed.
Theorem c184_identical x n mode norm cells : (1 <= n)%nat -> below_one x -> paired_bins n n x x cells -> x <> [] -> 0 < entropyZ (map fst cells) -> In norm norm_modes ->
  binned_nmi x x n n mode norm false = NmiOk 1.
Proof.
  intros BX X P N HP M. assert (NE : cells <> []) by (intros ->; apply paired_nil in P; contradiction). rewrite (proj1 (binned_value x x n n mode norm false cells BX BX X X P) NE). cbn [kept_cells].
  destruct (diag_H cells (paired_diag _ _ _ P)) as [J S0]. unfold I2. rewrite J, S0. replace (H Z.eq_dec (map fst cells) + H Z.eq_dec (map fst cells) - H Z.eq_dec (map fst cells)) with (H Z.eq_dec (map fst cells)) by ring.
  apply normalised_self; [|exact M]. unfold entropyZ in HP. rewrite entropy_H in HP by (intros Q; apply map_eq_nil in Q; contradiction). apply Rdiv_lt_0_compat; [exact HP|apply unit_pos].
Qed.
Example c184_case : 0 < entropyZ (map fst [(0, 0); (1, 1)]%Z) /\ binned_nmi [0; 1/2] [0; 1/2] 2 2 "nats" "Logarithmic" false = NmiOk 1.
Proof.
  assert (HP : 0 < entropyZ (map fst [(0, 0); (1, 1)]%Z)) by (unfold entropyZ; rewrite entropy_H by discriminate; cbn [map fst]; rewrite H_pos_two by discriminate; apply ln2_pos). split; [exact HP|]. destruct c183_case as [B [L _]].
  refine (c184_identical _ 2 _ _ _ _ L B _ HP _); [lia|discriminate|cbn; tauto].
Qed.

(** C185: exclude_lowest_bin *)
Theorem c185_exclude x y bx by_ mode cells : (1 <= bx)%nat -> (1 <= by_)%nat -> below_one x -> below_one y -> paired_bins bx by_ x y cells ->
  (above_lowest cells <> [] -> binned_nmi x y bx by_ mode "none" true = NmiOk (mutual_info (above_lowest cells) / (if string_dec mode "bits" then ln 2 else 1))) /\
  (above_lowest cells = [] -> forall norm, binned_nmi x y bx by_ mode norm true = NmiNaN).
Proof.
  intros BX BY X Y P. split.
  - intros NE. rewrite (proj1 (binned_value x y bx by_ mode "none" true cells BX BY X Y P) NE). rewrite mutual_info_I2 by exact NE. reflexivity.
  - intros E norm. exact (proj2 (binned_value x y bx by_ mode norm true cells BX BY X Y P) E).
Qed.
(** the pixels that are left out do not matter: appending pixel pairs one of which is in the lowest bin changes nothing *)
Theorem c185_dark_pixels_ignored x y x' y' bx by_ mode norm cells cells' : (1 <= bx)%nat -> (1 <= by_)%nat -> below_one x -> below_one y -> below_one x' -> below_one y' ->
  paired_bins bx by_ x y cells -> paired_bins bx by_ x' y' cells' -> Forall (fun p => fst p = 0%Z \/ snd p = 0%Z) cells' ->
  binned_nmi (x ++ x') (y ++ y') bx by_ mode norm true = binned_nmi x y bx by_ mode norm true.
Proof.
  intros BX BY X Y X' Y' P P' F. assert (PA := paired_app _ _ _ _ _ _ _ _ P P'). assert (XA : below_one (x ++ x')) by (apply Forall_app; split; assumption). assert (YA : below_one (y ++ y')) by (apply Forall_app; split; assumption).
  assert (K : kept_cells true (cells ++ cells') = kept_cells true cells). { cbn [kept_cells]. rewrite filter_app. replace (filter both_above cells') with (@nil (Z * Z)); [apply app_nil_r|]. symmetry. clear -F. induction F as [|p l Q F IH]; [reflexivity|]. cbn. unfold both_above at 1. destruct Q as [-> | ->]; cbn; [|rewrite andb_false_r]; exact IH. }
  destruct (binned_value _ _ bx by_ mode norm true _ BX BY XA YA PA) as [V1 V2]. destruct (binned_value _ _ bx by_ mode norm true _ BX BY X Y P) as [W1 W2]. rewrite K in V1, V2. destruct (kept_cells true cells) as [|p l] eqn:E.
  - rewrite V2, W2 by reflexivity. reflexivity.
  - rewrite V1, W1 by discriminate. reflexivity.
Qed.
Example c185_case : paired_bins 2 2 [0; 1/2] [1/2; 3/4] [(0, 1); (1, 1)]%Z /\ above_lowest [(0, 1); (1, 1)]%Z = [(1, 1)]%Z.
Proof. split; [|reflexivity]. repeat (apply pb_cons; [split; cbn; lra|split; cbn; lra|]); apply pb_nil. Qed.

(** C186: pixels equal to 1 are lost *)
Theorem c186_value_one_refuted :
  ~ (forall x n r, (1 <= n)%nat -> Forall (fun v => 0 <= v <= 1) x -> (exists u v k l, In u x /\ In v x /\ bin_of_value n u k /\ bin_of_value n v l /\ k <> l) -> binned_nmi x x n n "nats" "none" false = NmiOk r -> 0 < r).
Proof.
  intros C. assert (Q := C [0; 1] 2%nat 0 ltac:(lia)). enough (0 < 0) by lra. apply Q; [repeat (apply Forall_cons; [lra|]); apply Forall_nil| |exact one_value].
  exists 0, 1, 0%Z, 2%Z. split; [left; reflexivity|split; [right; left; reflexivity|]]. split; [split; cbn; lra|split; [split; cbn; lra|discriminate]].
Qed.

(** C187: batches *)
Theorem c187_batch xs ys bx by_ mode norm exclude :
  (List.length xs = List.length ys \/ List.length xs = 1%nat \/ List.length ys = 1%nat) -> xs <> [] -> ys <> [] ->
  exists rs, batch_binned_nmi xs ys bx by_ mode norm exclude = Some rs /\ List.length rs = Nat.max (List.length xs) (List.length ys) /\
  forall i x y, (i < List.length rs)%nat -> nth_error xs (if Nat.eqb (List.length xs) 1 then 0 else i) = Some x -> nth_error ys (if Nat.eqb (List.length ys) 1 then 0 else i) = Some y ->
    nth_error rs i = Some (binned_nmi x y bx by_ mode norm exclude).
Proof.
  intros B NX NY. unfold batch_binned_nmi. replace (Nat.eqb (List.length xs) (List.length ys) || Nat.eqb (List.length xs) 1 || Nat.eqb (List.length ys) 1)%bool with true.
  - eexists. split; [reflexivity|]. rewrite map_length, seq_length. split; [destruct (Nat.eqb_spec (List.length xs) (List.length ys)); lia|]. intros i x y L X Y. rewrite nth_error_map, (nth_error_nth' _ 0%nat) by (rewrite seq_length; exact L). rewrite seq_nth by exact L. cbn [option_map Nat.add]. f_equal.
    destruct (Nat.eqb (List.length xs) 1), (Nat.eqb (List.length ys) 1); rewrite (nth_error_nth _ _ _ X), (nth_error_nth _ _ _ Y); reflexivity.
  - symmetry. destruct B as [->|[->| ->]]; [rewrite Nat.eqb_refl; reflexivity|rewrite !orb_true_r; reflexivity|rewrite !orb_true_r; reflexivity].
Qed.
Theorem c187_mismatch xs ys bx by_ mode norm exclude : List.length xs <> List.length ys -> List.length xs <> 1%nat -> List.length ys <> 1%nat -> batch_binned_nmi xs ys bx by_ mode norm exclude = None.
Proof. intros A B C. unfold batch_binned_nmi. rewrite (proj2 (Nat.eqb_neq _ _) A), (proj2 (Nat.eqb_neq _ _) B), (proj2 (Nat.eqb_neq _ _) C). reflexivity. Qed.
Example c187_case : exists rs, batch_binned_nmi [[0; 1/2]] [[0; 1/2]; [1/4; 1/4]; [0; 0]] 2 2 "nats" "none" false = Some rs /\ List.length rs = 3%nat.
Proof. destruct (c187_batch [[0; 1/2]] [[0; 1/2]; [1/4; 1/4]; [0; 0]] 2 2 "nats" "none" false) as [rs [E [L _]]]; [right; left; reflexivity|discriminate|discriminate|]. exists rs. split; [exact E|exact L]. Qed.

(** C188: every entry of the cmif map is the mutual information at that displacement *)
Theorem c188_entries h w dst src bd bs chunk : Nat.even w = true -> (1 <= bd <= 256)%nat -> (1 <= bs <= 256)%nat -> image_below_one h w dst -> image_below_one h w src -> whole_table bd bs chunk ->
  exists f, cmif h w dst src None None bd bs chunk false "none" = CMap f /\
  forall y x cells, (y < h)%nat -> (x < w)%nat -> paired_bins bd bs (raster h w (shifted h w y x dst)) (raster h w src) cells -> f y x = NmiOk (mutual_info cells).
Proof.
  intros E BD BS DB SB C. destruct (cmif_value h w dst src bd bs chunk "none" E (proj1 BD) (proj1 BS) DB SB C) as [f [F V]]. exists f. split; [exact F|]. intros y x cells Y X P.
  assert (P' := cells_paired h w bd bs (displaced h w dst y x) src). apply paired_cells in P as [_ P]. apply paired_cells in P' as [_ P']. change (pixels h w) with (raster h w) in P'. change (displaced h w dst y x) with (shifted h w y x dst) in P' at 2. rewrite <- P in P'.
  rewrite (V y x Y X). rewrite P'. rewrite mutual_info_I2; [reflexivity|]. rewrite <- P'. apply cells_nonempty; lia.
Qed.
(** if src is dst displaced as entry (y0, x0) says, that entry is the largest of the map *)
Theorem c188_peak h w dst src b chunk y0 x0 : Nat.even w = true -> (1 <= b <= 256)%nat -> image_below_one h w dst -> image_below_one h w src -> whole_table b b chunk -> (y0 < h)%nat -> (x0 < w)%nat ->
  (forall i j, (i < h)%nat -> (j < w)%nat -> src i j = shifted h w y0 x0 dst i j) ->
  exists f top, cmif h w dst src None None b b chunk false "none" = CMap f /\ f y0 x0 = NmiOk top /\ forall y x r, (y < h)%nat -> (x < w)%nat -> f y x = NmiOk r -> r <= top.
Proof.
  intros E B DB SB C Y0 X0 S0. destruct (cmif_value h w dst src b b chunk "none" E (proj1 B) (proj1 B) DB SB C) as [f [F V]].
  set (c0 := cells_at h w b b (displaced h w dst y0 x0) src). assert (SN : forall y x, map snd (cells_at h w b b (displaced h w dst y x) src) = flat_map (fun n => map (fun m => floor_bin b (src n m)) (seq 0 w)) (seq 0 h)).
  { intros y x. unfold cells_at. induction (seq 0 h) as [|n l IH]; [reflexivity|]. cbn [flat_map]. rewrite map_app, IH, map_map. reflexivity. }
  assert (D : Forall (fun p : Z * Z => fst p = snd p) c0). { apply Forall_forall. intros p P. apply in_flat_map in P as [i [A Q]]. apply in_map_iff in Q as [j [<- Q]]. apply in_seq in A. apply in_seq in Q. cbn. rewrite (S0 i j) by lia. reflexivity. }
  destruct (diag_H c0 D) as [J SF]. exists f, (H Z.eq_dec (map snd c0)). split; [exact F|split].
  - rewrite (V y0 x0 Y0 X0). fold c0. unfold normalised. destruct (string_dec "none" "none"); [|congruence]. f_equal. unfold I2. rewrite J, SF. ring.
  - intros y x r Y X R0. rewrite (V y x Y X) in R0. unfold normalised in R0. destruct (string_dec "none" "none"); [|congruence]. injection R0 as <-.
    assert (L := I2_le_b (cells_at h w b b (displaced h w dst y x) src) (cells_nonempty h w b b _ _ ltac:(lia) ltac:(lia))). unfold c0. rewrite (SN y0 x0), <- (SN y x). exact L.
Qed.
(** every normalised entry lies in [0, 1] *)
Theorem c188_normalised h w dst src bd bs chunk norm : Nat.even w = true -> (1 <= bd <= 256)%nat -> (1 <= bs <= 256)%nat -> image_below_one h w dst -> image_below_one h w src -> whole_table bd bs chunk -> In norm norm_modes ->
  exists f, cmif h w dst src None None bd bs chunk false norm = CMap f /\ forall y x r, (y < h)%nat -> (x < w)%nat -> f y x = NmiOk r -> 0 <= r <= 1.
Proof.
  intros E BD BS DB SB C M. destruct (cmif_value h w dst src bd bs chunk norm E (proj1 BD) (proj1 BS) DB SB C) as [f [F V]]. exists f. split; [exact F|]. intros y x r Y X R0. rewrite (V y x Y X) in R0. cbv zeta in R0.
  set (c := cells_at h w bd bs (displaced h w dst y x) src) in *. assert (NE : c <> []) by (apply cells_nonempty; lia). refine (normalised_01 norm _ _ _ _ r _ _ _ _ _ M R0).
  - apply I2_nonneg. exact NE.
  - apply I2_le_b. exact NE.
  - apply I2_le_a. exact NE.
  - apply (H_merge pair_dec Z.eq_dec snd c NE).
  - apply (H_merge pair_dec Z.eq_dec fst c NE).
Qed.
Example c188_case : image_below_one 1 2 edge /\ whole_table 2 2 8 /\ whole_table 16 16 8 /\ (forall i j, (i < 1)%nat -> (j < 2)%nat -> edge i j = shifted 1 2 0 1 edge i j).
Proof.
  split; [apply row2_below; lra|]. split; [left; lia|]. split; [right; cbv; lia|]. intros i j I J. unfold shifted, rolled, edge, row2. destruct j as [|[|j]]; [reflexivity|reflexivity|lia].
Qed.

(** C189: cases in which the map is not the mutual information *)
Theorem c189_chunked_refuted :
  ~ (forall h w dst src bd bs chunk f y x r cells, Nat.even w = true -> (1 <= bd <= 256)%nat -> (1 <= bs <= 256)%nat -> (1 <= chunk)%nat -> image_below_one h w dst -> image_below_one h w src -> (y < h)%nat -> (x < w)%nat ->
     cmif h w dst src None None bd bs chunk false "none" = CMap f -> f y x = NmiOk r -> paired_bins bd bs (raster h w (shifted h w y x dst)) (raster h w src) cells -> r <= entropyZ (map snd cells)).
Proof.
  intros C. destruct chunk_value as [f [F V]]. assert (DB : image_below_one 1 2 two_levels) by (apply row2_below; lra). assert (P := cells_paired 1 2 9 9 (displaced 1 2 two_levels 0 1) two_levels).
  assert (CC : cells_at 1 2 9 9 (displaced 1 2 two_levels 0 1) two_levels = [(0, 0); (8, 8)]%Z) by (apply row2_cells; apply floor_unique; cbn; lra). rewrite CC in P.
  assert (Q := C 1%nat 2%nat _ _ 9%nat 9%nat 8%nat f 0%nat 1%nat _ _ eq_refl ltac:(lia) ltac:(lia) ltac:(lia) DB DB ltac:(lia) ltac:(lia) F V P). unfold entropyZ in Q. rewrite entropy_H in Q by discriminate. cbn [map snd] in Q. rewrite H_pos_two in Q by discriminate. assert (L := ln2_pos). lra.
Qed.
Theorem c189_constant_marginal_refuted :
  ~ (forall h w dst bd f, Nat.even w = true -> (1 <= bd <= 8)%nat -> image_below_one h w dst -> (0 < h)%nat -> (0 < w)%nat ->
     cmif h w dst dst None None bd bd 8 true "none" = CMap f -> forall cells, paired_bins bd bd (raster h w dst) (raster h w dst) cells -> f (h / 2)%nat (w / 2)%nat = NmiOk (mutual_info cells)).
Proof.
  intros C. destruct edge_value as [f [F V]]. assert (DB : image_below_one 1 2 edge) by (apply row2_below; lra). assert (P := cells_paired 1 2 2 2 edge edge).
  assert (Q := C 1%nat 2%nat edge 2%nat f eq_refl ltac:(lia) DB ltac:(lia) ltac:(lia) F _ P). change (1 / 2)%nat with 0%nat in Q. change (2 / 2)%nat with 1%nat in Q. rewrite V in Q. injection Q as Q.
  change (cells_at 1 2 2 2 edge edge) with (cells_at 1 2 2 2 (displaced 1 2 edge 0 1) edge) in Q. rewrite edge_cells in Q. rewrite mutual_info_I2 in Q by discriminate. unfold I2 in Q. destruct (diag_H [(0, 0); (1, 1)]%Z) as [J1 J2]; [repeat constructor|]. rewrite J1, J2 in Q. cbn [map fst] in Q. rewrite H_pos_two in Q by discriminate. assert (L := ln2_pos). lra.
Qed.
Theorem c189_value_one_refuted :
  ~ (forall h w p b f r, Nat.even w = true -> (1 <= b <= 8)%nat -> (0 < h)%nat -> (0 < w)%nat -> (forall i j, 0 <= p i j <= 1) -> (exists i j i' j' k l, (i < h)%nat /\ (j < w)%nat /\ (i' < h)%nat /\ (j' < w)%nat /\ bin_of_value b (p i j) k /\ bin_of_value b (p i' j') l /\ k <> l) ->
     cmif h w p p None None b b 8 false "none" = CMap f -> f (h / 2)%nat (w / 2)%nat = NmiOk r -> 0 < r).
Proof.
  intros C. destruct top_value as [f [F V]]. enough (0 < 0) by lra. apply (C 1%nat 2%nat top 2%nat f 0 eq_refl ltac:(lia) ltac:(lia) ltac:(lia)); [intros i j; unfold top, row2; destruct (Nat.eqb j 0); lra| |exact F|exact V].
  exists 0%nat, 0%nat, 0%nat, 1%nat, 0%Z, 2%Z. repeat (split; [lia|]). unfold bin_of_value, top, row2. cbn. split; [lra|split; [lra|discriminate]].
Qed.
(** a constant image shares no information with anything, masked or not *)
Theorem c189_mask_refuted :
  ~ (forall h w c src md f y x r, Nat.even w = true -> 0 <= c < 1 -> image_below_one h w src -> (y < h)%nat -> (x < w)%nat -> cmif h w (fun _ _ => c) src (Some md) None 2 2 8 false "none" = CMap f -> f y x = NmiOk r -> r = 0).
Proof.
  intros C. destruct mask_value as [f [r [F [V L]]]]. assert (Q := C 1%nat 4%nat 0 bump left_half f 0%nat 2%nat r eq_refl ltac:(lra)). rewrite Q in L; [lra| |lia|lia|exact F|exact V].
  intros i j _ _. unfold bump. destruct (Nat.eqb j 1); lra.
Qed.
Print Assumptions c181_bound.
Print Assumptions c181_self.
Print Assumptions c181_affine.
Print Assumptions c182_independent_zero_refuted.
Print Assumptions c182_symmetric_refuted.
Print Assumptions c182_at_most_entropy_refuted.
Print Assumptions c183_value.
Print Assumptions c183_zero_iff_independent.
Print Assumptions c183_bounds.
Print Assumptions c183_symmetric.
Print Assumptions c183_unknown_mode.
Print Assumptions c184_formulas.
Print Assumptions c184_in_unit_interval.
Print Assumptions c184_identical.
Print Assumptions c185_exclude.
Print Assumptions c185_dark_pixels_ignored.
Print Assumptions c186_value_one_refuted.
Print Assumptions c187_batch.
Print Assumptions c187_mismatch.
Print Assumptions c188_entries.
Print Assumptions c188_peak.
Print Assumptions c188_normalised.
Print Assumptions c189_chunked_refuted.
Print Assumptions c189_constant_marginal_refuted.
Print Assumptions c189_value_one_refuted.
Print Assumptions c189_mask_refuted.
