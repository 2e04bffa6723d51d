(** Theorems about standard_clean, do_nlpar and BlurAndDownsample (C263-C269), and about the energy rows of the simulator (C262). *)
From Coq Require Import String.
From Verif Require Import Base BaseFacts QuatModel ExpModel ExpProofs MpModel MpProofs ClaheModel BlurModel BlurSpec BlurProofs NlparModel NlparSpec NlparProofs MonteModel SimModel SimSpec SimResample CleanModel CleanSpec CleanProofs CleanDown CleanWit.
Open Scope R_scope.

(** C262: 30 keV in steps of the double nearest to 0.1 gives 299 rows, not 300 *)
Theorem c262_energy_rows_refuted : forall s, s_kV s = 30 -> nearest_double (1/10) (s_binE s) -> n_fillable s = 299%Z.
Proof.
  intros s K B. assert (E : s_binE s = tenth). { apply (proj2 (nearest_known 7205759403792794 (-56) (1/10) ltac:(lia) ltac:(lia) ltac:(replace (powerRZ 2 (-56)) with (/ 72057594037927936) by (simpl; f_equal; lra); apply Rabs_def1; lra))) in B. rewrite B. unfold tenth. rewrite p55. replace (powerRZ 2 (-56)) with (/ 72057594037927936) by (simpl; f_equal; lra). lra. }
  unfold n_fillable. rewrite K, E. apply floor_unique. unfold tenth. rewrite p55. lra.
Qed.
Print Assumptions c262_energy_rows_refuted.
Example c262_such_a_simulator : exists s, s_kV s = 30 /\ nearest_double (1/10) (s_binE s).
Proof.
  exists (mkSim 30 70 (7205759403792794 * powerRZ 2 (-56)) 1 80 true 101 5 0 0 28 (89/10) (587/10)). split; [reflexivity|]. cbn [s_binE]. apply (nearest_known 7205759403792794 (-56)); [lia|lia|]. replace (powerRZ 2 (-56)) with (/ 72057594037927936) by (simpl; f_equal; lra). apply Rabs_def1; lra.
Qed.

(** C263 *)
Theorem c263_clean_succeeds : forall s, well_formed s -> (4 <= e_h s)%nat -> (4 <= e_w s)%nat ->
  exists s', standard_clean s = Some s' /\ e_n s' = e_n s /\ e_h s' = e_h s /\ e_w s' = e_w s /\ e_spatial s' = e_spatial s /\ e_ori s' = e_ori s /\ e_coords s' = e_coords s /\ e_phases s' = e_phases s /\
    forall p, In p (e_pats s') -> List.length p = (e_h s * e_w s)%nat /\ (forall x, In x p -> 0 <= x < 1) /\ In 0 p.
Proof. exact clean_ok. Qed.
Print Assumptions c263_clean_succeeds.
Definition ramp (k : nat) : row := map (fun j => INR (j * k)) (seq 0 16).
Definition four_by_four (ps : list row) : exp_state := mkE [List.length ps] 4 4 ps false None None None None None None.
Example c263_nonvacuous : well_formed (four_by_four [ramp 1; ramp 3]) /\ (4 <= e_h (four_by_four [ramp 1; ramp 3]))%nat /\ ramp 1 <> ramp 3.
Proof.
  split; [split; [discriminate|intros p [<-|[<-|[]]]; reflexivity]|]. split; [cbn; lia|]. intros E. apply (f_equal (fun l => nth 1 l 0)) in E. unfold ramp in E. cbn [seq map nth] in E. change (1 * 1)%nat with 1%nat in E. change (1 * 3)%nat with 3%nat in E. apply INR_eq in E. discriminate.
Qed.

(** C264 *)
Theorem c264_background_has_no_effect : forall s s' out out', well_formed s -> same_up_to_background s s' -> standard_clean s = Some out -> standard_clean s' = Some out' -> e_pats out' = e_pats out.
Proof. intros s s' out out' W B. exact (clean_same_background s s' W B out out'). Qed.
Print Assumptions c264_background_has_no_effect.
Example c264_nonvacuous : let s := four_by_four [ramp 1; ramp 3] in let s' := four_by_four [map (fun j => nth j (ramp 1) 0 + INR (j * j) + 5) (seq 0 16); map (fun j => nth j (ramp 3) 0 + INR (j * j) + 7) (seq 0 16)] in
  same_up_to_background s s' /\ e_pats s' <> e_pats s.
Proof.
  intros s s'. split.
  - split; [reflexivity|]. split; [reflexivity|]. split; [reflexivity|]. exists (fun j => INR (j * j)), (fun i => match i with O => 5 | _ => 7 end). intros i I. destruct i as [|[|i]]; [reflexivity|reflexivity|cbn in I; lia].
  - intros E. injection E as E _ _. lra.
Qed.

(** C265: one pattern *)
Theorem c265_single_pattern_erased_refuted : forall s p s', e_pats s = [p] -> List.length p = (e_h s * e_w s)%nat -> (4 <= e_h s)%nat -> (4 <= e_w s)%nat -> standard_clean s = Some s' -> e_pats s' = [repeat 0 (e_h s * e_w s)].
Proof. exact clean_single. Qed.
Print Assumptions c265_single_pattern_erased_refuted.
Example c265_witness : exists s', standard_clean (four_by_four [ramp 1]) = Some s' /\ e_pats s' = [repeat 0 16].
Proof.
  destruct (clean_ok (four_by_four [ramp 1])) as [s' [E _]]; [split; [discriminate|intros p [<-|[]]; reflexivity]|cbn; lia|cbn; lia|]. exists s'. split; [exact E|]. apply (clean_single (four_by_four [ramp 1]) (ramp 1)); [reflexivity|reflexivity|cbn; lia|cbn; lia|exact E].
Qed.

(** C266 *)
Theorem c266_size : forall s align z m out, 0 < s -> blur_and_downsample s align z m = Some out -> whole_part (INR (p_h m) / s) (p_h out) /\ whole_part (INR (p_w m) / s) (p_w out).
Proof. exact down_size. Qed.
Print Assumptions c266_size.
Theorem c266_brightness_and_contrast : forall s align z m m' a b out, 0 < s -> p_h m' = p_h m -> p_w m' = p_w m -> (forall i j, (i < p_h m)%nat -> (j < p_w m)%nat -> p_at m' i j = a * p_at m i j + b) ->
  blur_and_downsample s align z m = Some out -> exists out', blur_and_downsample s align z m' = Some out' /\ p_h out' = p_h out /\ p_w out' = p_w out /\ forall i j, p_at out' i j = a * p_at out i j + b.
Proof. exact down_affine. Qed.
Print Assumptions c266_brightness_and_contrast.
Theorem c266_constant_stays_constant : forall s align z m c out, 0 < s -> constant_pic m c -> blur_and_downsample s align z m = Some out -> constant_pic out c.
Proof.
  intros s align z m c out S C H i j I J. assert (W : pic_within m c c) by (intros u v U V; rewrite (C u v U V); lra). pose proof (down_bounds s align z m out c c S H W i j I J). lra.
Qed.
Print Assumptions c266_constant_stays_constant.
Theorem c266_overshoot_bounded : forall s align z m out lo hi, 0 < s -> blur_and_downsample s align z m = Some out -> pic_within m lo hi -> pic_within out (lo - 57/128 * (hi - lo)) (hi + 57/128 * (hi - lo)).
Proof. exact down_bounds. Qed.
Print Assumptions c266_overshoot_bounded.
Theorem c266_mirror : forall s align z m out out', 0 < s -> Nat.even (p_h m) = true -> Nat.even (p_w m) = true -> align = false \/ (2 <= p_h out /\ 2 <= p_w out)%nat -> blur_and_downsample s align z m = Some out ->
  (blur_and_downsample s align z (flip_rows m) = Some out' -> same_pic out' (flip_rows out)) /\ (blur_and_downsample s align z (flip_cols m) = Some out' -> same_pic out' (flip_cols out)).
Proof. exact down_flip. Qed.
Print Assumptions c266_mirror.
(** it runs: factor 2 on an 8 x 8 image *)
Example c266_nonvacuous : exists out, blur_and_downsample 2 false 3 edge = Some out /\ p_h out = 4%nat /\ p_w out = 4%nat.
Proof. destruct overshoot as [out [E [_ [H [W _]]]]]. exists out. auto. Qed.

(** C267 *)
Theorem c267_range_kept_refuted : exists m out, blur_and_downsample 2 false 3 m = Some out /\ pic_within m 0 1 /\ p_h out = 4%nat /\ p_w out = 4%nat /\ forall i, (i < 4)%nat -> 1 < p_at out i 2.
Proof. destruct overshoot as [out H]. exists edge, out. exact H. Qed.
Print Assumptions c267_range_kept_refuted.

(** C268 *)
Theorem c268_exact_multiples_refuted : forall d x, nearest_double (1 / 49) d -> nearest_double (INR 98 * d) x -> Z.to_nat (floorZ x) = 1%nat /\ whole_part (INR 98 / 49) 2.
Proof. intros d x D X. replace (INR 98) with 98 in * by (rewrite INR_IZR_INZ; reflexivity). split; [exact (size_98 d x D X)|]. unfold whole_part. change (INR 2) with 2. lra. Qed.
Print Assumptions c268_exact_multiples_refuted.
Example c268_nonvacuous : exists d x, nearest_double (1 / 49) d /\ nearest_double (INR 98 * d) x.
Proof. replace (INR 98) with 98 by (rewrite INR_IZR_INZ; reflexivity). exact size_98_exists. Qed.

(** C269 *)
Theorem c269_average_of_stored_neighbours : forall k offs tol bias coeff s s' a b, sorted_offsets k offs -> e_spatial s = [a; b] -> do_nlpar offs tol bias coeff s = Denoised s' ->
  e_n s' = (a * b)%nat /\ e_spatial s' = [a; b] /\ (forall p, In p (e_pats s') -> List.length p = (e_h s * e_w s)%nat) /\
  forall i j, (i < a)%nat -> (j < b)%nat -> exists w, averaging k (scan_of s a b) i j w /\ (forall r c, w r c <= w i j) /\
    forall p, (p < e_h s * e_w s)%nat -> stored s' b i j p = scan_sum (scan_of s a b) (fun r c => w r c * stored s b r c p).
Proof. exact nlpar_scan. Qed.
Print Assumptions c269_average_of_stored_neighbours.
Theorem c269_scans_only : forall offs tol bias coeff s, do_nlpar offs tol bias coeff s = NlparValueError <-> List.length (e_spatial s) <> 2%nat.
Proof. exact nlpar_not_2d. Qed.
Print Assumptions c269_scans_only.
Example c269_nonvacuous : exists offs coeff s', sorted_offsets 1 offs /\ do_nlpar offs (1/1000000) 0 coeff (mkE [1%nat; 1%nat] 1 1 [[2]] false None None None None None None) = Denoised s'.
Proof.
  destruct (sort_exists 1) as [offs S]. destruct (scan1_ok offs S) as [c E]. destruct (nlpar_same offs scan1 (scan_of (mkE [1%nat; 1%nat] 1 1 [[2]] false None None None None None None) 1 1) c (1/1000000) 0) as [out O]; try reflexivity; [|exact E|].
  - intros i j p P. cbn [scan1 s_n] in P. assert (p = 0)%nat by lia. subst p. unfold ppix. change (inb (scan_of (mkE [1%nat; 1%nat] 1 1 [[2]] false None None None None None None) 1 1) i j) with (inb scan1 i j). destruct (inb scan1 i j) eqn:B; [|reflexivity].
    unfold inb, scan1 in B. cbn [s_h s_w] in B. apply andb_prop in B. destruct B as [B B4]. apply andb_prop in B. destruct B as [B B3]. apply andb_prop in B. destruct B as [B1 B2]. apply Z.leb_le in B1, B3. apply Z.ltb_lt in B2, B4. replace i with 0%Z by lia. replace j with 0%Z by lia. reflexivity.
  - exists offs, c. eexists. split; [exact S|]. unfold do_nlpar. cbn [e_spatial]. rewrite O. reflexivity.
Qed.
