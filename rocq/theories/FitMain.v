From Verif Require Import Base QuatModel QuatSpec QuatProofs OriModel Se3Model LaueModel KnnSpec ExpModel ExpProofs IndexModel GeomModel GeomProofs FitModel FitSpec FitProofs FitExample RefineSpec.
Section Am.
Variable am : list R -> nat.
Hypothesis Ham : picks_max am.
Lemma loz_unique l a b : largest_or_zero l a -> largest_or_zero l b -> a = b.
Proof. intros [A1 [A2 A3]] [B1 [B2 B3]]. apply Rle_antisym; [destruct A3 as [->|A3]; auto|destruct B3 as [->|B3]; auto]. Qed.
Lemma mean_best_unique f zs dict sim pats z y x a b : mean_best f zs dict sim pats z y x a -> mean_best f zs dict sim pats z y x b -> a = b.
Proof.
  intros [l1 [F1 ->]] [l2 [F2 ->]]. f_equal. revert l2 F2. induction F1 as [|p c ps cs P F IH]; intros l2 F2; inversion F2; subst; [reflexivity|].
  f_equal; [eapply loz_unique; eauto|apply IH; assumption].
Qed.
Lemma mean_best_code f zs dict batch sim pats z y x : (1 <= batch)%nat -> mean_best f zs dict sim pats z y x (mean_similarity am f zs dict batch sim pats z y x).
Proof.
  intros B. eexists. split; [|unfold mean_similarity; reflexivity]. induction pats as [|p ps IH]; cbn [map]; constructor; [|exact IH].
  apply cell_value; assumption.
Qed.
Lemma Forall2_traverse {A B} (f : A -> option B) l : forall l', traverse f l = Some l' -> Forall2 (fun x y => f x = Some y) l l'.
Proof.
  induction l as [|x l IH]; intros l' H; cbn in H; [injection H as <-; constructor|]. destruct (f x) eqn:E; [|discriminate]. destruct (traverse f l); [|discriminate]. injection H as <-. constructor; auto.
Qed.
Lemma fitter_batch f zs dict batch sim pats r : fitter am f zs dict batch sim pats = Ok r -> (1 <= batch)%nat.
Proof. unfold fitter. destruct (Nat.eqb_spec batch 0); [discriminate|lia]. Qed.
(** global position, and one dictionary entry per pattern *)
Lemma fitter_best f zs dict batch sim pats pc qs : fitter am f zs dict batch sim pats = Ok (pc, qs) ->
  exists z y x m, in_grid f (List.length zs) z y x /\ pc = mkV (report (f_wp f) (f_w f) x) (report (f_hp f) (f_h f) y) (nth z zs 0) /\
    mean_best f zs dict sim pats z y x m /\
    (forall z' y' x' m', in_grid f (List.length zs) z' y' x' -> mean_best f zs dict sim pats z' y' x' m' -> m' <= m) /\
    Forall2 (fun _ q => In q dict) pats qs.
Proof.
  intros H. pose proof (fitter_batch _ _ _ _ _ _ _ H) as B. apply fitter_global in H as [z [y [x [G [P [M T]]]]]]; [|exact Ham]. exists z, y, x. eexists. split; [exact G|]. split; [exact P|].
  split; [apply mean_best_code; exact B|]. split.
  - intros z' y' x' m' G' M'. rewrite (mean_best_unique _ _ _ _ _ _ _ _ _ _ M' (mean_best_code f zs dict batch sim pats z' y' x' B)). apply M. exact G'.
  - apply Forall2_traverse in T. clear - T. induction T as [|p q ps qs E F IH]; constructor; [|exact IH]. eapply nth_error_In. exact E.
Qed.
(** one dictionary batch: each pattern's reported entry is its best one there *)
Lemma fitter_single f zs dict batch sim pats pc qs : fitter am f zs dict batch sim pats = Ok (pc, qs) -> (List.length dict <= batch)%nat ->
  exists z y x, in_grid f (List.length zs) z y x /\ pc = mkV (report (f_wp f) (f_w f) x) (report (f_hp f) (f_h f) y) (nth z zs 0) /\
    Forall2 (fun p q => (exists q', In q' dict /\ 0 < score_at f zs sim z y x p q') -> In q dict /\ forall q', In q' dict -> score_at f zs sim z y x p q' <= score_at f zs sim z y x p q) pats qs.
Proof.
  intros H L. pose proof (fitter_batch _ _ _ _ _ _ _ H) as B. apply fitter_global in H as [z [y [x [G [P [_ T]]]]]]; [|exact Ham]. exists z, y, x. split; [exact G|]. split; [exact P|].
  apply Forall2_traverse in T. clear - T L B Ham. induction T as [|p q ps qs E F IH]; constructor; [|exact IH]. intros [q0 [Q0 S0]].
  set (ds := map (score_at f zs sim z y x p) dict). change (nth_error dict (snd (cell am batch ds)) = Some q) in E.
  assert (HP : exists s, In s ds /\ 0 < s) by (exists (score_at f zs sim z y x p q0); split; [apply in_map; exact Q0|exact S0]).
  destruct (cell_single am Ham batch ds B) as [L1 N1]; [unfold ds; rewrite map_length; exact L|exact HP|]. pose proof (cell_value am Ham batch ds B) as [_ [V _]].
  split; [eapply nth_error_In; exact E|]. intros q' Q'. rewrite <- N1 in V. assert (N2 : nth (snd (cell am batch ds)) ds 0 = score_at f zs sim z y x p q).
  { unfold ds. erewrite nth_error_nth; [reflexivity|]. rewrite nth_error_map. unfold ds in E. rewrite E. reflexivity. }
  rewrite N2 in V. apply V. apply in_map. exact Q'.
Qed.
(** every score negative at the chosen position: the first dictionary entry is what is recorded *)
Lemma fitter_negative f zs dict batch sim pats pc qs : fitter am f zs dict batch sim pats = Ok (pc, qs) ->
  exists z y x, in_grid f (List.length zs) z y x /\ pc = mkV (report (f_wp f) (f_w f) x) (report (f_hp f) (f_h f) y) (nth z zs 0) /\
    Forall2 (fun p q => (forall q', In q' dict -> score_at f zs sim z y x p q' < 0) -> nth_error dict 0 = Some q) pats qs.
Proof.
  intros H. pose proof (fitter_batch _ _ _ _ _ _ _ H) as B. apply fitter_global in H as [z [y [x [G [P [_ T]]]]]]; [|exact Ham]. exists z, y, x. split; [exact G|]. split; [exact P|].
  apply Forall2_traverse in T. clear - T B Ham. induction T as [|p q ps qs E F IH]; constructor; [|exact IH]. intros N.
  rewrite cell_negative in E; [exact E|exact Ham|exact B|]. intros s S. apply in_map_iff in S as [q' [<- Q']]. apply (N q'). exact Q'.
Qed.
End Am.
Lemma fitter_odd am f zs dict batch sim pats : (1 <= batch)%nat -> Nat.odd (cols_of f) = true -> fitter am f zs dict batch sim pats = Err ExpModel.RuntimeError.
Proof. intros B O. unfold fitter. destruct (Nat.eqb_spec batch 0); [lia|]. rewrite O. reflexivity. Qed.
Lemma lag_centre a b z h w i j d e : (0 < h)%nat -> (0 < w)%nat ->
  pixel_point (mkV (1/2) (1/2) z) a b (h, w) (i + d) (j + e) = pixel_point (centre_of_lag h w z d e) a b (h, w) i j.
Proof. apply true_centre. Qed.
Lemma sign_wrong a b z h w pad y x i j : (0 < h)%nat -> (0 < w)%nat -> Nat.even h = true -> Nat.even w = true ->
  let d := IZR (Z.of_nat y - Z.of_nat ((h + pad + pad) / 2)) in let e := IZR (Z.of_nat x - Z.of_nat ((w + pad + pad) / 2)) in
  pixel_point (mkV (report pad w x) (report pad h y) z) a b (h, w) i j = pixel_point (mkV (1/2) (1/2) z) a b (h, w) (i + d) (j + e) -> d = 0 /\ e = 0.
Proof.
  intros H W EH EW d e Q. rewrite true_centre in Q by assumption. apply centre_inj in Q; try assumption. rewrite !report_sym in Q by assumption. fold d e in Q. injection Q as Q1 Q2.
  assert (INR h <> 0) by (apply not_0_INR; lia). assert (INR w <> 0) by (apply not_0_INR; lia).
  assert (S : forall u n, n <> 0 -> 1/2 + u / n = 1/2 - u / n -> u = 0). { intros u n N E. replace u with (u / n * n) by (field; exact N). replace (u / n) with 0 by lra. ring. }
  split; [apply (S d (INR h)); assumption|apply (S e (INR w)); assumption].
Qed.
Lemma apply_unit r t p c : apply_geometry r t p = Some c -> vunit c /\ exists k, 0 < k /\ c = vscale k (vadd (mapp r p) t).
Proof. apply vnormalize_some. Qed.
Lemma apply_none r t p : apply_geometry r t p = None <-> vadd (mapp r p) t = vzero.
Proof. apply vnormalize_none. Qed.
Lemma dict_coord r t q p : dictionary_coord r t q p = match apply_geometry r t p with None => None | Some c => Some (qu_apply q c) end.
Proof. reflexivity. Qed.
Lemma dict_unit r t q p c : unit_q q -> dictionary_coord r t q p = Some c -> vunit c.
Proof.
  intros U. unfold dictionary_coord. destruct (vnormalize _) as [v|] eqn:E; [|discriminate]. intros [= <-]. unfold vunit. rewrite qu_apply_norm by exact U. exact (proj1 (vnormalize_some _ _ E)).
Qed.
Lemma dict_compose r t p q q' c : dictionary_coord r t q p = Some c -> dictionary_coord r t (qu_prod_raw q' q) p = Some (qu_apply q' c).
Proof. unfold dictionary_coord. destruct (vnormalize _) as [v|]; [|discriminate]. intros [= <-]. f_equal. apply qu_apply_prod. Qed.
(** ---- the caller's tensor ---- *)
Lemma maxl_nonneg p : p <> [] -> 0 <= maxl (map (fun x => x - minl p) p).
Proof.
  intros N. destruct (minl_spec p N) as [I _]. destruct (maxl_spec (map (fun x => x - minl p) p)) as [_ M]; [destruct p; [congruence|discriminate]|].
  apply M. apply in_map_iff. exists (minl p). split; [ring|exact I].
Qed.
Lemma fit_norm_none p : p <> [] -> (fit_normalise p = None <-> forall x y, In x p -> In y p -> x = y).
Proof.
  intros N. destruct (minl_spec p N) as [I M]. assert (NE : map (fun x => x - minl p) p <> []) by (destruct p; [congruence|discriminate]). destruct (maxl_spec _ NE) as [J K]. pose proof (maxl_nonneg p N) as P.
  unfold fit_normalise. destruct (Req_EM_T (maxl (map (fun x => x - minl p) p)) 0) as [Z|Z]; split; intros H; try discriminate; try reflexivity.
  - intros x y X Y. assert (A : forall u, In u p -> u = minl p). { intros u U. pose proof (M u U). specialize (K (u - minl p) (in_map _ _ _ U)). rewrite Z in K. lra. } rewrite (A x X), (A y Y). reflexivity.
  - exfalso. apply Z. apply in_map_iff in J as [x [E X]]. rewrite <- E, (H x (minl p) X I). ring.
Qed.
Lemma suml_app_scale p a b : suml (map (fun x => (x - a) / b) p) = (suml p - INR (List.length p) * a) / b.
Proof. induction p as [|x p IH]; [cbn; unfold Rdiv; ring|]. cbn [map suml fold_right]. fold (suml (map (fun x => (x - a) / b) p)) (suml p). rewrite IH. cbn [List.length]. rewrite S_INR. unfold Rdiv. ring. Qed.
Lemma suml_zeromean p : p <> [] -> suml (zeromean p) = 0.
Proof.
  intros N. unfold zeromean. replace (map (fun x => x - meanl p) p) with (map (fun x => (x - meanl p) / 1) p) by (apply map_ext; intros; field). rewrite suml_app_scale. unfold meanl.
  field. apply not_0_INR. destruct p; [congruence|discriminate].
Qed.
Lemma fit_norm_some p q : p <> [] -> fit_normalise p = Some q -> suml q = 0 /\ List.length q = List.length p /\ (exists a b, In a q /\ In b q /\ b - a = 1) /\ forall a b, In a q -> In b q -> b - a <= 1.
Proof.
  intros N. destruct (minl_spec p N) as [I M]. assert (NE : map (fun x => x - minl p) p <> []) by (destruct p; [congruence|discriminate]). destruct (maxl_spec _ NE) as [J K]. pose proof (maxl_nonneg p N) as P.
  unfold fit_normalise. set (mx := maxl (map (fun x => x - minl p) p)) in *. destruct (Req_EM_T mx 0) as [Z|Z]; [discriminate|]. intros [= <-].
  set (u := map (fun x => x / mx) (map (fun x => x - minl p) p)). assert (NU : u <> []) by (unfold u; destruct p; [congruence|discriminate]).
  split; [apply suml_zeromean; exact NU|]. split; [unfold zeromean, u; rewrite !map_length; reflexivity|]. split.
  - exists (0 / mx - meanl u), (mx / mx - meanl u). split; [apply in_map_iff; exists (0 / mx); split; [reflexivity|]; apply in_map_iff; exists 0; split; [reflexivity|]; apply in_map_iff; exists (minl p); split; [ring|exact I]|].
    split; [apply in_map_iff; exists (mx / mx); split; [reflexivity|]; apply in_map_iff; exists mx; split; [reflexivity|exact J]|]. field. exact Z.
  - intros a b A B. unfold zeromean in A, B. apply in_map_iff in A as [a1 [<- A]], B as [b1 [<- B]]. unfold u in A, B. apply in_map_iff in A as [a2 [<- A]], B as [b2 [<- B]].
    pose proof (K b2 B). apply in_map_iff in A as [a3 [<- A]]. pose proof (M a3 A). assert (IP : 0 < / mx) by (apply Rinv_0_lt_compat; lra).
    replace (b2 / mx - meanl u - ((a3 - minl p) / mx - meanl u)) with ((b2 - (a3 - minl p)) * / mx) by (unfold Rdiv; ring). replace 1 with (mx * / mx) by (field; exact Z). apply Rmult_le_compat_r; lra.
Qed.
Lemma caller_same p : p <> [] -> caller_after 1 p = Some p -> suml p = 0.
Proof. intros N H. exact (proj1 (fit_norm_some p p N H)). Qed.
(** ---- the enlarged grid ---- *)
Lemma periphery_step n bin prior after k : (0 < bin)%nat -> (0 < n)%nat -> let N := (n + prior + after)%nat in (S k < N)%nat ->
  (nth (S k) (periphery_axis (n * bin) bin prior after) 0 - nth k (periphery_axis (n * bin) bin prior after) 0 = INR bin <-> (bin = 2 /\ prior + after = 1)%nat).
Proof.
  intros B N0 N K. pose proof (periphery_value (n * bin) bin prior after) as V. cbv zeta in V. rewrite Nat.div_mul in V by lia. fold N in V.
  rewrite (V (S k)), (V k) by lia. assert (NZ : INR (N - 1) <> 0) by (apply not_0_INR; lia). rewrite S_INR.
  set (g := INR (n * bin) + INR prior + INR after - (INR bin - 1)). set (c := g / INR (N - 1)).
  replace ((INR bin - 1) / 2 - INR prior + (INR k + 1) * c - ((INR bin - 1) / 2 - INR prior + INR k * c)) with c by ring.
  assert (E : c = INR bin <-> g = INR (bin * (N - 1))). { unfold c. rewrite mult_INR. split; intros H; [rewrite <- H; field; exact NZ|rewrite H; field; exact NZ]. }
  rewrite E. assert (G : g = INR (n * bin - bin + prior + after + 1)). { unfold g. rewrite !plus_INR, minus_INR by nia. simpl (INR 1). ring. }
  rewrite G. split.
  - intros H. apply INR_eq in H. unfold N in *. clear - H B N0. destruct n as [|n]; [lia|]. remember (prior + after)%nat as q eqn:Q. replace (S n * bin - bin + prior + after + 1)%nat with (n * bin + q + 1)%nat in H by nia.
    replace (bin * (S n + prior + after - 1))%nat with (n * bin + q * bin)%nat in H by nia. assert (H' : (q + 1 = q * bin)%nat) by lia. clear - H' B Q. destruct bin as [|[|bin]]; [lia|lia|]. destruct q as [|[|q]]; [lia|split; lia|nia].
  - intros [-> H]. f_equal. unfold N. nia.
Qed.
