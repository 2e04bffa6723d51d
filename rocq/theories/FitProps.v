(** Properties of the pattern-centre fitter (fitting.py). *)
From Verif Require Import Base QuatModel QuatSpec QuatProofs OriModel Se3Model LaueModel KnnSpec ExpModel ExpProofs IndexModel GeomModel GeomSpec GeomProofs FitModel FitSpec FitProofs FitExample FitMain RefineSpec RefineGrad.

(** C51 *)
Theorem c51_global_best : forall am, picks_max am -> forall f zs dict batch sim pats pc qs, fitter am f zs dict batch sim pats = Ok (pc, qs) ->
  exists z y x m, in_grid f (List.length zs) z y x /\ pc = mkV (report (f_wp f) (f_w f) x) (report (f_hp f) (f_h f) y) (nth z zs 0) /\
    mean_best f zs dict sim pats z y x m /\
    (forall z' y' x' m', in_grid f (List.length zs) z' y' x' -> mean_best f zs dict sim pats z' y' x' m' -> m' <= m) /\
    Forall2 (fun _ q => In q dict) pats qs.
Proof. exact fitter_best. Qed.
Print Assumptions c51_global_best.
Theorem c51_lag_is_window : forall f sim p y x, (y < rows_of f)%nat -> (x < cols_of f)%nat ->
  let d := (Z.of_nat y - Z.of_nat (rows_of f / 2))%Z in let e := (Z.of_nat x - Z.of_nat (cols_of f / 2))%Z in
  in_reach f d e -> dots_full f sim p y x = window_similarity f sim p d e.
Proof. exact dots_window. Qed.
Print Assumptions c51_lag_is_window.
Theorem c51_single_batch : forall am, picks_max am -> forall f zs dict batch sim pats pc qs, fitter am f zs dict batch sim pats = Ok (pc, qs) -> (List.length dict <= batch)%nat ->
  exists z y x, in_grid f (List.length zs) z y x /\ pc = mkV (report (f_wp f) (f_w f) x) (report (f_hp f) (f_h f) y) (nth z zs 0) /\
    Forall2 (fun p q => (exists q', In q' dict /\ 0 < score_at f zs sim z y x p q') -> In q dict /\ forall q', In q' dict -> score_at f zs sim z y x p q' <= score_at f zs sim z y x p q) pats qs.
Proof. exact fitter_single. Qed.
Print Assumptions c51_single_batch.
Theorem c51_batch_size_irrelevant_to_similarity : forall am, picks_max am -> forall b b' ds, (1 <= b)%nat -> (1 <= b')%nat -> fst (cell am b ds) = fst (cell am b' ds) /\ largest_or_zero ds (fst (cell am b ds)).
Proof. intros am H b b' ds B B'. split; [eapply loz_unique; apply cell_value; assumption|apply cell_value; assumption]. Qed.
Print Assumptions c51_batch_size_irrelevant_to_similarity.
Example c51_runs : picks_max first_max /\ fitter first_max tiny_size [0] [tiny_weak; tiny_strong] 2 tiny_sim [tiny_pat] = Ok (mkV (1/2) (-1/2) 0, [tiny_strong]).
Proof. split; [exact first_max_ok|apply tiny_fit2; exact first_max_ok]. Qed.

(** C120: the reported orientations do not depend on how the dictionary is split into batches *)
Theorem c120_batch_independent_refuted : forall am, picks_max am -> exists f zs dict sim pats pc q1 q2,
  fitter am f zs dict 1 sim pats = Ok (pc, [q1]) /\ fitter am f zs dict 2 sim pats = Ok (pc, [q2]) /\ q1 <> q2 /\
  forall p, In p pats -> score_at f zs sim 0 0 1 p q1 < score_at f zs sim 0 0 1 p q2.
Proof.
  intros am H. exists tiny_size, [0], [tiny_weak; tiny_strong], tiny_sim, [tiny_pat], (mkV (1/2) (-1/2) 0), tiny_weak, tiny_strong.
  split; [apply tiny_fit1; exact H|]. split; [apply tiny_fit2; exact H|]. split; [intros E; injection E as E; lra|]. intros p [<-|[]].
  rewrite !(proj1 (proj2 (tiny_score _ _ _))). cbn [tiny_weak tiny_strong qw]. lra.
Qed.
Print Assumptions c120_batch_independent_refuted.
Theorem c120_index_within_batch : forall am, picks_max am -> forall batch ds, (1 <= batch)%nat -> (exists s, In s ds /\ 0 < s) ->
  exists t, (t * batch + snd (cell am batch ds) < List.length ds)%nat /\ (snd (cell am batch ds) < batch)%nat /\ nth (t * batch + snd (cell am batch ds)) ds 0 = fst (cell am batch ds).
Proof. exact cell_index. Qed.
Print Assumptions c120_index_within_batch.

(** C121: every pattern gets its best dictionary entry at the reported centre *)
Theorem c121_negative_scores : forall am, picks_max am -> forall f zs dict batch sim pats pc qs, fitter am f zs dict batch sim pats = Ok (pc, qs) ->
  exists z y x, in_grid f (List.length zs) z y x /\ pc = mkV (report (f_wp f) (f_w f) x) (report (f_hp f) (f_h f) y) (nth z zs 0) /\
    Forall2 (fun p q => (forall q', In q' dict -> score_at f zs sim z y x p q' < 0) -> nth_error dict 0 = Some q) pats qs.
Proof. exact fitter_negative. Qed.
Print Assumptions c121_negative_scores.
Theorem c121_best_entry_refuted : forall am, picks_max am -> exists f zs dict sim pats pc qs,
  fitter am f zs dict (List.length dict) sim pats = Ok (pc, qs) /\
  (forall z y x, pc = mkV (report (f_wp f) (f_w f) x) (report (f_hp f) (f_h f) y) (nth z zs 0) -> in_grid f (List.length zs) z y x ->
     exists p q q', nth_error pats 2 = Some p /\ nth_error qs 2 = Some q /\ In q' dict /\ score_at f zs sim z y x p q < score_at f zs sim z y x p q').
Proof.
  intros am H. exists tiny_size, [0], [tiny_strong; tiny_weak], tiny_sim, [tiny_pat; tiny_pat; tiny_inv], (mkV (1/2) (-1/2) 0), [tiny_strong; tiny_strong; tiny_strong].
  split; [apply tiny_fit3; exact H|]. intros z y x E [Hz [Hy Hx]]. change (cols_of tiny_size) with 2%nat in Hx. change (rows_of tiny_size) with 1%nat in Hy. cbn [List.length] in Hz.
  assert (z = 0)%nat by lia. assert (y = 0)%nat by lia. subst z y. assert (x = 1)%nat.
  { destruct x as [|[|x]]; [|reflexivity|lia]. injection E as E _. unfold report in E. cbn [f_wp f_w tiny_size] in E. change (Z.of_nat 0 - Z.of_nat 0 - Z.of_nat ((2 + 1) / 2))%Z with (-1)%Z in E. simpl in E. lra. }
  subst x. exists tiny_inv, tiny_strong, tiny_weak. split; [reflexivity|]. split; [reflexivity|]. split; [right; left; reflexivity|].
  rewrite !(proj2 (proj2 (proj2 (tiny_score _ _ _)))). cbn [tiny_weak tiny_strong qw]. lra.
Qed.
Print Assumptions c121_best_entry_refuted.

(** C122: the reported centre is the one whose pattern the best window is *)
Theorem c122_centre_of_window : forall tilt1 tilt2 z h w i j d e, (0 < h)%nat -> (0 < w)%nat ->
  pixel_point (mkV (1/2) (1/2) z) tilt1 tilt2 (h, w) (i + d) (j + e) = pixel_point (centre_of_lag h w z d e) tilt1 tilt2 (h, w) i j.
Proof. exact lag_centre. Qed.
Print Assumptions c122_centre_of_window.
Theorem c122_sign_refuted : forall tilt1 tilt2 z h w pad y x i j, (0 < h)%nat -> (0 < w)%nat -> Nat.even h = true -> Nat.even w = true ->
  let d := IZR (Z.of_nat y - Z.of_nat ((h + pad + pad) / 2)) in let e := IZR (Z.of_nat x - Z.of_nat ((w + pad + pad) / 2)) in
  pixel_point (mkV (report pad w x) (report pad h y) z) tilt1 tilt2 (h, w) i j = pixel_point (mkV (1/2) (1/2) z) tilt1 tilt2 (h, w) (i + d) (j + e) -> d = 0 /\ e = 0.
Proof. exact sign_wrong. Qed.
Print Assumptions c122_sign_refuted.
Example c122_lag_exists : let d := IZR (Z.of_nat 61 - Z.of_nat ((60 + 30 + 30) / 2)) in d = 1 /\ vy (centre_of_lag 60 60 (1/2) d 0) = 1/2 - 1/60 /\ report 30 60 61 = 1/2 + 1/60.
Proof.
  cbv zeta. change (Z.of_nat 61 - Z.of_nat ((60 + 30 + 30) / 2))%Z with 1%Z. split; [reflexivity|]. assert (E : INR 60 = 60) by (rewrite INR_IZR_INZ; reflexivity). split; [unfold centre_of_lag; cbn [vy]; rewrite E; lra|].
  rewrite report_sym by reflexivity. change (Z.of_nat 61 - Z.of_nat ((60 + 30 + 30) / 2))%Z with 1%Z. rewrite E. lra.
Qed.

(** C123: a pattern matching the undisplaced window is reported at centre 1/2 *)
Theorem c123_zero_lag : forall len prior after, (0 < len)%nat -> (report prior len ((len + prior + after) / 2) = 1/2 <-> ((len + prior + after) / 2 = prior + (len + 1) / 2)%nat).
Proof. intros len prior after. apply report_half. Qed.
Print Assumptions c123_zero_lag.
Theorem c123_zero_lag_symmetric : forall len pad, (0 < len)%nat -> Nat.even len = true -> report pad len ((len + pad + pad) / 2) = 1/2.
Proof. intros len pad L E. apply report_half; [exact L|apply half_sym; exact E]. Qed.
Print Assumptions c123_zero_lag_symmetric.
Theorem c123_asymmetric_refuted : report 0 60 ((60 + 0 + 30) / 2) = 3/4 /\ forall pad len, Nat.odd len = true -> (0 < len)%nat -> report pad len ((len + pad + pad) / 2) <> 1/2.
Proof.
  split.
  - unfold report. change (Z.of_nat ((60 + 0 + 30) / 2) - Z.of_nat 0 - Z.of_nat ((60 + 1) / 2))%Z with 15%Z. assert (E : INR 60 = 60) by (rewrite INR_IZR_INZ; reflexivity). rewrite E. lra.
  - intros pad len O L H. apply report_half in H; [|exact L]. apply Nat.odd_spec in O as [m ->]. replace (2 * m + 1 + pad + pad)%nat with (1 + (m + pad) * 2)%nat in H by lia. rewrite Nat.div_add in H by lia.
    replace (2 * m + 1 + 1)%nat with ((m + 1) * 2)%nat in H by lia. rewrite Nat.div_mul in H by lia. cbn in H. lia.
Qed.
Print Assumptions c123_asymmetric_refuted.

(** C124: any detector and search window can be fitted *)
Theorem c124_odd_width_refuted : forall am f zs dict batch sim pats, (1 <= batch)%nat -> Nat.odd (cols_of f) = true -> fitter am f zs dict batch sim pats = Err ExpModel.RuntimeError.
Proof. exact fitter_odd. Qed.
Print Assumptions c124_odd_width_refuted.
Example c124_odd_case : Nat.odd (cols_of (mkF 60 61 30 30 30 30)) = true. Proof. reflexivity. Qed.

(** C125: the caller's patterns are not changed by fitting *)
Theorem c125_binned_untouched : forall bin p, (2 <= bin)%nat -> caller_after bin p = Some p.
Proof. intros bin p B. unfold caller_after. destruct (Nat.ltb_spec 1 bin); [reflexivity|lia]. Qed.
Print Assumptions c125_binned_untouched.
Theorem c125_unbinned_overwritten_refuted : forall p, p <> [] -> suml p <> 0 -> caller_after 1 p <> Some p.
Proof. intros p N S H. apply S. apply caller_same; assumption. Qed.
Print Assumptions c125_unbinned_overwritten_refuted.
Theorem c125_normalised : forall p q, p <> [] -> fit_normalise p = Some q ->
  suml q = 0 /\ List.length q = List.length p /\ (exists a b, In a q /\ In b q /\ b - a = 1) /\ forall a b, In a q -> In b q -> b - a <= 1.
Proof. exact fit_norm_some. Qed.
Print Assumptions c125_normalised.
Theorem c125_constant_is_nan : forall p, p <> [] -> (fit_normalise p = None <-> forall x y, In x p -> In y p -> x = y).
Proof. exact fit_norm_none. Qed.
Print Assumptions c125_constant_is_nan.

(** C126: neighbouring pixels of the enlarged grid are one (binned) pixel apart *)
Theorem c126_spacing_refuted : forall n bin prior after k, (0 < bin)%nat -> (0 < n)%nat -> (S k < n + prior + after)%nat ->
  (nth (S k) (periphery_axis (n * bin) bin prior after) 0 - nth k (periphery_axis (n * bin) bin prior after) 0 = INR bin <-> (bin = 2 /\ prior + after = 1)%nat).
Proof. intros n bin prior after k B N K. apply periphery_step; assumption. Qed.
Print Assumptions c126_spacing_refuted.
Theorem c126_unbinned_value : forall len prior after k, (2 <= len + prior + after)%nat -> (k < len + prior + after)%nat ->
  nth k (periphery_axis len 1 prior after) 0 = INR k - INR prior + INR k / INR (len + prior + after - 1).
Proof. intros len prior after k H K. apply periphery_unbinned; assumption. Qed.
Print Assumptions c126_unbinned_value.

(** the padding on each side is the number of whole binned pixels the pattern centre can move beyond the middle, and the shape is that of the grid *)
Theorem c126_padding_in_binned_pixels : forall h w bin xmin xmax ymin ymax coords wp wa hp ha rows cols, (0 < bin)%nat -> xmin <= 1/2 <= xmax -> ymin <= 1/2 <= ymax ->
  periphery_coords h w bin xmin xmax ymin ymax = (coords, (wp, wa, hp, ha), (rows, cols)) ->
  (INR wp <= (1/2 - xmin) * INR w / INR bin < INR wp + 1) /\ (INR wa <= (xmax - 1/2) * INR w / INR bin < INR wa + 1) /\
  (INR hp <= (1/2 - ymin) * INR h / INR bin < INR hp + 1) /\ (INR ha <= (ymax - 1/2) * INR h / INR bin < INR ha + 1) /\
  rows = (h / bin + hp + ha)%nat /\ cols = (w / bin + wp + wa)%nat /\ List.length coords = (rows * cols)%nat.
Proof. exact padding_counts. Qed.
Print Assumptions c126_padding_in_binned_pixels.
Example c126_padding_case : exists coords, periphery_coords 60 60 2 (2/5) (3/5) (1/5) (4/5) = (coords, (3, 3, 9, 9)%nat, (48, 36)%nat).
Proof. exact padding_case. Qed.

(** C127: detector and dictionary directions are unit vectors along the pixel's point *)
Theorem c127_unit : forall r t p c, apply_geometry r t p = Some c -> vunit c /\ exists k, 0 < k /\ c = vscale k (vadd (mapp r p) t).
Proof. exact apply_unit. Qed.
Print Assumptions c127_unit.
Theorem c127_nan : forall r t p, apply_geometry r t p = None <-> vadd (mapp r p) t = vzero.
Proof. exact apply_none. Qed.
Print Assumptions c127_nan.
Theorem c127_dictionary : forall r t q p c, dictionary_coord r t q p = Some c -> (unit_q q -> vunit c) /\ exists c0, apply_geometry r t p = Some c0 /\ c = qu_apply q c0.
Proof. intros r t q p c H. split; [intros U; exact (dict_unit _ _ _ _ _ U H)|]. rewrite dict_coord in H. destruct (apply_geometry r t p) as [v|]; [|discriminate]. injection H as <-. exists v. auto. Qed.
Print Assumptions c127_dictionary.
Theorem c127_compose : forall r t p q q' c, dictionary_coord r t q p = Some c -> dictionary_coord r t (qu_prod_raw q' q) p = Some (qu_apply q' c).
Proof. exact dict_compose. Qed.
Print Assumptions c127_compose.
Example c127_case : apply_geometry mid (mkV 0 0 1) (mkV 0 0 0) = Some (mkV 0 0 1).
Proof. unfold apply_geometry. assert (E : vadd (mapp mid (mkV 0 0 0)) (mkV 0 0 1) = mkV 0 0 1) by (apply vec_eq; unfold vadd, mapp, mid; simpl; ring). rewrite E. apply vnormalize_unit_id. unfold vunit, vdot. simpl. ring. Qed.
