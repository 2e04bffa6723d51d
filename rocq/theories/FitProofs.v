From Verif Require Import Base BaseFacts QuatModel QuatSpec QuatProofs OriModel OriAxProofs KnnSpec KnnProofs ExpModel IndexModel IndexSpec IndexProofs Se3Model Se3Spec Se3Proofs GeomModel GeomSpec GeomProofs FitModel FitSpec RefineSpec.

(** ---- one cell ---- *)
Section Cell.
Variable am : list R -> nat.
Hypothesis Ham : picks_max am.
Lemma am_in b : b <> [] -> In (nth (am b) b 0) b /\ forall x, In x b -> x <= nth (am b) b 0.
Proof.
  intros N. destruct (Ham b N) as [L M]. split; [apply nth_In; exact L|]. intros x X. apply (In_nth _ _ 0) in X as [i [I <-]]. apply M. exact I.
Qed.
Lemma scan_inv : forall bs m i, (forall b, In b bs -> b <> []) ->
  let r := fold_left (cell_step am) bs (m, i) in
  m <= fst r /\ (forall x, In x (concat bs) -> x <= fst r) /\ (fst r = m \/ In (fst r) (concat bs)) /\
  ((snd r = i /\ fst r = m) \/ exists b, In b bs /\ (snd r < List.length b)%nat /\ nth (snd r) b 0 = fst r).
Proof.
  induction bs as [|b bs IH]; intros m i N; [cbn; split; [lra|]; split; [contradiction|]; auto|]. cbn [fold_left].
  assert (NB : b <> []) by (apply N; left; reflexivity). destruct (am_in b NB) as [A1 A2]. destruct (Ham b NB) as [AL _].
  specialize (IH (fst (cell_step am (m, i) b)) (snd (cell_step am (m, i) b)) (fun c C => N c (or_intror C))). rewrite <- surjective_pairing in IH. cbv zeta in *.
  set (r := fold_left (cell_step am) bs (cell_step am (m, i) b)) in *. destruct IH as [I1 [I2 [I3 I4]]].
  unfold cell_step in I1, I3, I4. cbn [fst snd] in I1, I3, I4. set (v := nth (am b) b 0) in *.
  pose proof (Rmax_l m v) as Ml. pose proof (Rmax_r m v) as Mr.
  split; [lra|]. split.
  - intros x X. cbn [concat] in X. apply in_app_or in X as [X|X]; [specialize (A2 x X); lra|apply I2; exact X].
  - split.
    + destruct I3 as [I3|I3]; [|right; cbn [concat]; apply in_or_app; right; exact I3]. destruct (Rle_dec m v) as [Q|Q].
      * right. rewrite I3, Rmax_right by exact Q. cbn [concat]. apply in_or_app. left. exact A1.
      * left. rewrite I3. apply Rmax_left. lra.
    + destruct I4 as [[I4 I5]|[c [C [I4 I5]]]]; [|right; exists c; split; [right; exact C|auto]]. destruct (Req_EM_T (Rmax m v) v) as [Q|Q].
      * right. exists b. split; [left; reflexivity|]. rewrite I4, I5. split; [exact AL|]. rewrite Q. reflexivity.
      * left. split; [exact I4|]. rewrite I5. apply Rmax_left. destruct (Rle_dec m v) as [W|W]; [rewrite Rmax_right in Q by exact W; lra|lra].
Qed.
Lemma cell_value batch ds : (1 <= batch)%nat -> largest_or_zero ds (fst (cell am batch ds)).
Proof.
  intros B. unfold cell, cell_scan. destruct (scan_inv (split_go (List.length ds) batch ds) 0 0) as [I1 [I2 [I3 _]]]; [intros b H; exact (split_go_nonempty _ _ B _ _ H)|].
  rewrite split_go_concat in I2, I3 by (auto; lia). unfold largest_or_zero. auto.
Qed.
Lemma split_go_in {A} n (l : list A) : forall f b, In b (split_go f n l) -> exists t, b = firstn n (skipn (t * n) l).
Proof.
  intros f. revert l. induction f as [|f IH]; intros l b H; [contradiction|]. destruct l as [|x l]; [contradiction|]. cbn [split_go] in H. destruct H as [<-|H].
  - exists 0%nat. reflexivity.
  - apply IH in H as [t ->]. exists (S t). f_equal. cbn [Nat.mul]. assert (E : forall a c (u : list A), skipn a (skipn c u) = skipn (c + a) u).
    { intros a c. induction c as [|c IHc]; intros u; [reflexivity|]. destruct u; [rewrite !skipn_nil; reflexivity|]. cbn [Nat.add skipn]. apply IHc. }
    apply E.
Qed.
Lemma nth_firstn' {A} (d : A) : forall n l i, (i < n)%nat -> nth i (firstn n l) d = nth i l d.
Proof. induction n as [|n IH]; intros l i I; [lia|]. destruct l; [destruct i; reflexivity|]. destruct i; [reflexivity|]. cbn. apply IH. lia. Qed.
Lemma nth_skipn' {A} (d : A) : forall n l i, nth i (skipn n l) d = nth (n + i) l d.
Proof. induction n as [|n IH]; intros l i; [reflexivity|]. destruct l; [destruct i, n; reflexivity|]. cbn. apply IH. Qed.
Lemma cell_index batch ds : (1 <= batch)%nat -> (exists s, In s ds /\ 0 < s) ->
  exists t, (t * batch + snd (cell am batch ds) < List.length ds)%nat /\ (snd (cell am batch ds) < batch)%nat /\ nth (t * batch + snd (cell am batch ds)) ds 0 = fst (cell am batch ds).
Proof.
  intros B [s [S P]]. pose proof (cell_value batch ds B) as [_ [V _]]. specialize (V s S). unfold cell, cell_scan in *.
  destruct (scan_inv (split_go (List.length ds) batch ds) 0 0) as [_ [_ [_ I4]]]; [intros b H; exact (split_go_nonempty _ _ B _ _ H)|].
  destruct I4 as [[_ I4]|[b [Hb [L E]]]]; [cbn in *; lra|]. apply split_go_in in Hb as [t ->]. exists t.
  rewrite firstn_length, skipn_length in L. rewrite nth_firstn', nth_skipn' in E by lia. split; [lia|]. split; [lia|exact E].
Qed.
Lemma cell_single batch ds : (1 <= batch)%nat -> (List.length ds <= batch)%nat -> (exists s, In s ds /\ 0 < s) ->
  (snd (cell am batch ds) < List.length ds)%nat /\ nth (snd (cell am batch ds)) ds 0 = fst (cell am batch ds).
Proof.
  intros B L P. destruct (cell_index batch ds B P) as [t [T1 [T2 T3]]]. assert (t = 0)%nat by nia. subst t. cbn [Nat.mul Nat.add] in *. auto.
Qed.
Lemma cell_negative batch ds : (1 <= batch)%nat -> (forall s, In s ds -> s < 0) -> cell am batch ds = (0, 0%nat).
Proof.
  intros B N. unfold cell, cell_scan. destruct (scan_inv (split_go (List.length ds) batch ds) 0 0) as [I1 [I2 [I3 I4]]]; [intros b H; exact (split_go_nonempty _ _ B _ _ H)|].
  assert (C : forall x, In x (concat (split_go (List.length ds) batch ds)) -> x < 0) by (rewrite split_go_concat by (auto; lia); exact N).
  set (r := fold_left (cell_step am) (split_go (List.length ds) batch ds) (0, 0%nat)) in *.
  destruct I3 as [I3|I3]; [|specialize (C _ I3); lra]. destruct I4 as [[I4 _]|[b [Hb [L E]]]]; [rewrite (surjective_pairing r), I3, I4; reflexivity|].
  assert (Q : nth (snd r) b 0 < 0); [|lra]. apply C. apply in_concat. exists b. split; [exact Hb|apply nth_In; exact L].
Qed.
End Cell.

(** ---- correlation ---- *)
Lemma coord_sum_split n m f : coord_sum (n + m) f = coord_sum n f + coord_sum m (fun i => f (n + i)%nat).
Proof.
  revert f. induction n as [|n IH]; intros f; [unfold coord_sum at 2; simpl; rewrite Rplus_0_l; apply coord_sum_ext; reflexivity|].
  cbn [Nat.add]. rewrite !coord_sum_S, (IH (fun t => f (S t))). cbn [Nat.add]. ring.
Qed.
Lemma coord_sum_window N a n f : (a + n <= N)%nat -> (forall i, (i < N)%nat -> (i < a \/ a + n <= i)%nat -> f i = 0) -> coord_sum N f = coord_sum n (fun i => f (a + i)%nat).
Proof.
  intros H Z. replace N with (a + (n + (N - a - n)))%nat by lia. rewrite coord_sum_split, coord_sum_split.
  rewrite (coord_sum_ext a f (fun _ => 0)) by (intros i I; apply Z; lia). rewrite coord_sum_0.
  rewrite (coord_sum_ext (N - a - n) _ (fun _ => 0)) by (intros i I; apply Z; lia). rewrite coord_sum_0. ring.
Qed.
Lemma padded_in f p i j : (i < f_h f)%nat -> (j < f_w f)%nat -> padded f p (f_hp f + i)%nat (f_wp f + j)%nat = p i j.
Proof.
  intros I J. unfold padded. destruct (Nat.leb_spec (f_hp f) (f_hp f + i)); [|lia]. destruct (Nat.ltb_spec (f_hp f + i) (f_hp f + f_h f)); [|lia].
  destruct (Nat.leb_spec (f_wp f) (f_wp f + j)); [|lia]. destruct (Nat.ltb_spec (f_wp f + j) (f_wp f + f_w f)); [|lia]. cbn [andb]. f_equal; lia.
Qed.
Lemma padded_out f p n m : (n < f_hp f \/ f_hp f + f_h f <= n \/ m < f_wp f \/ f_wp f + f_w f <= m)%nat -> padded f p n m = 0.
Proof.
  intros H. unfold padded. destruct (Nat.leb_spec (f_hp f) n); [|reflexivity]. destruct (Nat.ltb_spec n (f_hp f + f_h f)); [|reflexivity].
  destruct (Nat.leb_spec (f_wp f) m); [|reflexivity]. destruct (Nat.ltb_spec m (f_wp f + f_w f)); [|reflexivity]. lia.
Qed.
Lemma shift_mod N y k : (y < N)%nat -> (0 <= Z.of_nat k + (Z.of_nat y - Z.of_nat (N / 2)) < Z.of_nat N)%Z ->
  ((k + (y + (N - N / 2)) mod N) mod N = Z.to_nat (Z.of_nat k + (Z.of_nat y - Z.of_nat (N / 2))))%nat.
Proof.
  intros Y H. assert (N0 : N <> 0%nat) by lia. rewrite Nat.add_mod_idemp_r by exact N0. assert (D : (N / 2 <= N)%nat) by (apply Nat.div_le_upper_bound; lia).
  apply Nat2Z.inj. rewrite Nat2Z.inj_mod, Z2Nat.id by lia. replace (Z.of_nat (k + (y + (N - N / 2)))) with (Z.of_nat k + (Z.of_nat y - Z.of_nat (N / 2)) + 1 * Z.of_nat N)%Z by lia.
  rewrite Z_mod_plus_full. apply Z.mod_small. exact H.
Qed.
Lemma dots_window f sim p y x : (y < rows_of f)%nat -> (x < cols_of f)%nat ->
  let d := (Z.of_nat y - Z.of_nat (rows_of f / 2))%Z in let e := (Z.of_nat x - Z.of_nat (cols_of f / 2))%Z in
  in_reach f d e -> dots_full f sim p y x = window_similarity f sim p d e.
Proof.
  intros Y X d e [D E]. unfold dots_full, fftshift, xcorr, window_similarity.
  rewrite (coord_sum_window _ (f_hp f) (f_h f)).
  - apply coord_sum_ext. intros i I. rewrite (coord_sum_window _ (f_wp f) (f_w f)).
    + apply coord_sum_ext. intros j J. rewrite padded_in by assumption. rewrite Rmult_comm. f_equal. unfold d, e in *.
      rewrite (shift_mod (rows_of f)), (shift_mod (cols_of f)); [reflexivity|exact X|unfold cols_of in *; lia|exact Y|unfold rows_of in *; lia].
    + unfold cols_of; lia.
    + intros j J O. rewrite padded_out by lia. ring.
  - unfold rows_of; lia.
  - intros i I O. rewrite (coord_sum_ext _ _ (fun _ => 0)); [apply coord_sum_0|]. intros j J. rewrite padded_out by lia. ring.
Qed.

(** ---- pattern centres ---- *)
Lemma pixel_meaning pc a b sh i j : pixel_point pc a b sh i j =
  mapp (fst (bruker_geometry_to_SE3 pc a b sh)) (mkV (i - (vy pc * INR (fst sh) - 1/2)) (j - (vx pc * INR (snd sh) - 1/2)) (vz pc * INR (fst sh))).
Proof.
  pose proof (bruker_trans pc a b sh) as T. cbv zeta in T. unfold pixel_point. destruct (bruker_geometry_to_SE3 pc a b sh) as [r t]. cbn [fst snd] in *. rewrite T.
  apply vec_eq; mcbv; ring.
Qed.
Lemma rot_pc pc pc' a b sh : fst (bruker_geometry_to_SE3 pc a b sh) = fst (bruker_geometry_to_SE3 pc' a b sh).
Proof. reflexivity. Qed.
Lemma true_centre a b z h w i j d e : (0 < h)%nat -> (0 < w)%nat ->
  pixel_point (mkV (1/2) (1/2) z) a b (h, w) (i + d) (j + e) = pixel_point (mkV (1/2 - e / INR w) (1/2 - d / INR h) z) a b (h, w) i j.
Proof.
  intros H W. assert (INR h <> 0) by (apply not_0_INR; lia). assert (INR w <> 0) by (apply not_0_INR; lia). rewrite !pixel_meaning.
  rewrite (rot_pc (mkV (1/2) (1/2) z) (mkV (1/2 - e / INR w) (1/2 - d / INR h) z)). f_equal. cbn [vx vy vz fst snd]. f_equal; field; assumption.
Qed.
Lemma centre_inj a b pc pc' h w i j : (0 < h)%nat -> (0 < w)%nat -> pixel_point pc a b (h, w) i j = pixel_point pc' a b (h, w) i j -> pc = pc'.
Proof.
  intros H W E. assert (INR h <> 0) by (apply not_0_INR; lia). assert (INR w <> 0) by (apply not_0_INR; lia). rewrite !pixel_meaning in E. rewrite (rot_pc pc pc') in E.
  pose proof (bruker_rot pc' a b (h, w)) as [_ [RR _]]. set (r := fst (bruker_geometry_to_SE3 pc' a b (h, w))) in *. apply (f_equal (mapp (mtr r))) in E.
  rewrite <- !mapp_mmul in E. rewrite RR in E. cbn [fst snd] in E. 
  assert (I : forall v, mapp mid v = v) by (intros v; apply vec_eq; mcbv; ring). rewrite !I in E. injection E as E1 E2 E3.
  apply vec_eq; [apply (Rmult_eq_reg_r (INR w)); [lra|assumption]|apply (Rmult_eq_reg_r (INR h)); [lra|assumption]|apply (Rmult_eq_reg_r (INR h)); [lra|assumption]].
Qed.
Lemma report_value pad len idx N : report pad len idx = 1/2 + IZR ((Z.of_nat idx - Z.of_nat (N / 2)) + (Z.of_nat (N / 2) - Z.of_nat pad - Z.of_nat ((len + 1) / 2))) / INR len.
Proof. unfold report. do 3 f_equal. ring. Qed.
Lemma half_sym len pad : Nat.even len = true -> ((len + pad + pad) / 2 = pad + (len + 1) / 2)%nat.
Proof.
  intros E. apply Nat.even_spec in E as [m ->]. replace (2 * m + pad + pad)%nat with ((m + pad) * 2)%nat by lia. rewrite Nat.div_mul by lia.
  replace (2 * m + 1)%nat with (1 + m * 2)%nat by lia. rewrite Nat.div_add by lia. cbn [Nat.div Nat.divmod fst]. lia.
Qed.
Lemma report_sym len pad idx : Nat.even len = true -> report pad len idx = 1/2 + IZR (Z.of_nat idx - Z.of_nat ((len + pad + pad) / 2)) / INR len.
Proof. intros E. unfold report. do 3 f_equal. rewrite half_sym by exact E. lia. Qed.
Lemma report_half len pad N : (0 < len)%nat -> (report pad len (N / 2) = 1/2 <-> (N / 2 = pad + (len + 1) / 2)%nat).
Proof.
  intros L. assert (P : INR len <> 0) by (apply not_0_INR; lia). unfold report. split.
  - intros H. assert (Q : IZR (Z.of_nat (N / 2) - Z.of_nat pad - Z.of_nat ((len + 1) / 2)) / INR len = 0) by lra. unfold Rdiv in Q.
    apply Rmult_integral in Q as [Q|Q]; [|apply Rinv_neq_0_compat in P; contradiction]. apply eq_IZR in Q. lia.
  - intros H. rewrite H. replace (Z.of_nat (pad + (len + 1) / 2) - Z.of_nat pad - Z.of_nat ((len + 1) / 2))%Z with 0%Z by lia. field. exact P.
Qed.

(** ---- enlarged pixel grid ---- *)
Lemma periphery_value len bin prior after k : let N := (len / bin + prior + after)%nat in (2 <= N)%nat -> (k < N)%nat ->
  nth k (periphery_axis len bin prior after) 0 = (INR bin - 1) / 2 - INR prior + INR k * ((INR len + INR prior + INR after - (INR bin - 1)) / INR (N - 1)).
Proof.
  intros N H K. unfold periphery_axis. fold N. rewrite linspace_nth by assumption. field. apply not_0_INR. lia.
Qed.
Lemma periphery_unbinned len prior after k : let N := (len + prior + after)%nat in (2 <= N)%nat -> (k < N)%nat ->
  nth k (periphery_axis len 1 prior after) 0 = INR k - INR prior + INR k / INR (N - 1).
Proof.
  intros N H K. rewrite periphery_value; rewrite Nat.div_1_r; try assumption. change (len + prior + after)%nat with N.
  assert (E : INR len + INR prior + INR after = INR (N - 1) + 1). { rewrite minus_INR by lia. unfold N. rewrite !plus_INR. simpl (INR 1). ring. }
  simpl (INR 1). rewrite E. field. apply not_0_INR. lia.
Qed.

(** ---- the fitter ---- *)
Lemma positions_in Z N M z y x : In (z, y, x) (positions Z N M) <-> (z < Z /\ y < N /\ x < M)%nat.
Proof.
  unfold positions. rewrite in_flat_map. split.
  - intros [a [A H]]. apply in_flat_map in H as [b [B H]]. apply in_map_iff in H as [c [E C]]. injection E as -> -> ->. apply in_seq in A, B, C. lia.
  - intros [H1 [H2 H3]]. exists z. split; [apply in_seq; lia|]. apply in_flat_map. exists y. split; [apply in_seq; lia|]. apply in_map_iff. exists x. split; [reflexivity|apply in_seq; lia].
Qed.
Lemma fitter_global am f zs dict batch sim pats pc qs : picks_max am -> fitter am f zs dict batch sim pats = Ok (pc, qs) ->
  exists z y x, in_grid f (List.length zs) z y x /\ pc = mkV (report (f_wp f) (f_w f) x) (report (f_hp f) (f_h f) y) (nth z zs 0) /\
    (forall z' y' x', in_grid f (List.length zs) z' y' x' -> mean_similarity am f zs dict batch sim pats z' y' x' <= mean_similarity am f zs dict batch sim pats z y x) /\
    traverse (fun p => nth_error dict (snd (cell am batch (map (fun q => dots_full f (sim (nth z zs 0) q) p y x) dict)))) pats = Some qs.
Proof.
  intros Ham. unfold fitter. destruct (Nat.eqb batch 0); [discriminate|]. destruct (Nat.odd (cols_of f)); [discriminate|].
  set (avg := fun zyx : nat * nat * nat => let '(z, y, x) := zyx in meanl (map (fun p => fst (cell am batch (map (fun q => dots_full f (sim (nth z zs 0) q) p y x) dict))) pats)).
  set (pos := positions (List.length zs) (rows_of f) (cols_of f)). assert (PI : forall z y x, In (z, y, x) pos <-> in_grid f (List.length zs) z y x) by (intros; apply positions_in).
  destruct pos as [|p0 ps] eqn:EP; [discriminate|]. rewrite <- EP in *. fold avg.
  assert (NE : map avg pos <> []) by (rewrite EP; discriminate). destruct (Ham _ NE) as [L M]. rewrite map_length in L, M.
  set (best := am (map avg pos)) in *.
  assert (V : forall i, (i < List.length pos)%nat -> nth i (map avg pos) 0 = avg (nth i pos (0, 0, 0)%nat)).
  { intros i I. rewrite (nth_indep _ 0 (avg (0, 0, 0)%nat)) by (rewrite map_length; exact I). apply map_nth. }
  rewrite V in M by exact L. pose proof (nth_In pos (0, 0, 0)%nat L) as IN. destruct (nth best pos (0, 0, 0)%nat) as [[z y] x] eqn:EB.
  destruct (traverse _ pats) as [l|] eqn:T; [|discriminate]. intros E. injection E as <- <-. exists z, y, x.
  split; [apply PI; exact IN|]. split; [reflexivity|]. split; [|exact T].
  intros z' y' x' G. apply PI in G. apply (In_nth _ _ (0, 0, 0)%nat) in G as [i [I E]]. specialize (M i I). rewrite V, E in M by exact I. exact M.
Qed.
(** ---- padding ---- *)
Lemma pad_bounds frac len bin : 0 <= frac -> (0 < bin)%nat -> INR (pad_of frac len bin) <= frac * INR len / INR bin < INR (pad_of frac len bin) + 1.
Proof.
  intros F B. unfold pad_of. assert (P : 0 <= frac * INR len / INR bin).
  { apply Rmult_le_pos; [apply Rmult_le_pos; [exact F|apply pos_INR]|]. left. apply Rinv_0_lt_compat, lt_0_INR. exact B. }
  set (x := frac * INR len / INR bin) in *. destruct (base_Int_part x) as [L U].
  assert (Z0 : (0 <= Int_part x)%Z). { assert ((-1 < Int_part x)%Z) by (apply lt_IZR; lra). lia. }
  rewrite INR_IZR_INZ, Z2Nat.id by exact Z0. lra.
Qed.
Lemma linspace_len a b n : List.length (linspace a b n) = n.
Proof. destruct n as [|[|n]]; [reflexivity..|]. unfold linspace. rewrite map_length, seq_length. reflexivity. Qed.
Lemma padding_counts h w bin xmin xmax ymin ymax coords wp wa hp ha rows cols : (0 < bin)%nat -> xmin <= 1/2 <= xmax -> ymin <= 1/2 <= ymax ->
  periphery_coords h w bin xmin xmax ymin ymax = (coords, (wp, wa, hp, ha), (rows, cols)) ->
  (INR wp <= (1/2 - xmin) * INR w / INR bin < INR wp + 1) /\ (INR wa <= (xmax - 1/2) * INR w / INR bin < INR wa + 1) /\
  (INR hp <= (1/2 - ymin) * INR h / INR bin < INR hp + 1) /\ (INR ha <= (ymax - 1/2) * INR h / INR bin < INR ha + 1) /\
  rows = (h / bin + hp + ha)%nat /\ cols = (w / bin + wp + wa)%nat /\ List.length coords = (rows * cols)%nat.
Proof.
  intros B X Y E. unfold periphery_coords in E. cbv zeta in E. injection E as E1 E2 E3 E4 E5 E6 E7.
  rewrite <- E2, <- E3, <- E4, <- E5. split; [apply pad_bounds; [lra|exact B]|]. split; [apply pad_bounds; [lra|exact B]|]. split; [apply pad_bounds; [lra|exact B]|]. split; [apply pad_bounds; [lra|exact B]|].
  split; [symmetry; exact E6|]. split; [symmetry; exact E7|]. rewrite <- E1, map_length, mesh_length, <- E6, <- E7. unfold periphery_axis. rewrite !linspace_len. reflexivity.
Qed.
Lemma pad_of_is frac len bin k : (0 < bin)%nat -> 0 <= frac -> INR k <= frac * INR len / INR bin < INR k + 1 -> pad_of frac len bin = k.
Proof.
  intros B F [L U]. destruct (pad_bounds frac len bin F B) as [L' U']. apply Nat.le_antisymm; apply Nat.lt_succ_r, INR_lt; rewrite S_INR; lra.
Qed.
Lemma padding_case : exists coords, periphery_coords 60 60 2 (2/5) (3/5) (1/5) (4/5) = (coords, (3, 3, 9, 9)%nat, (48, 36)%nat).
Proof.
  unfold periphery_coords. cbv zeta.
  assert (E2 : INR 2 = 2) by (simpl; lra). assert (E60 : INR 60 = 60) by (rewrite INR_IZR_INZ; reflexivity). assert (E3 : INR 3 = 3) by (rewrite INR_IZR_INZ; reflexivity). assert (E9 : INR 9 = 9) by (rewrite INR_IZR_INZ; reflexivity).
  rewrite (pad_of_is (1/2 - 2/5) 60 2 3), (pad_of_is (3/5 - 1/2) 60 2 3), (pad_of_is (1/2 - 1/5) 60 2 9), (pad_of_is (4/5 - 1/2) 60 2 9) by (try lia; rewrite ?E60, ?E2, ?E3, ?E9; lra).
  eexists. reflexivity.
Qed.
