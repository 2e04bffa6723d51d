(** C45, C100-C104: the master pattern object (ebsdtorch/ebsd/master_pattern.py) and its reader. *)
From Coq Require Import String.
From Verif Require Import Base BaseFacts SymModel FactorModel SphereModel GeomModel ExpModel MpModel MpSpec MpProofs.
Open Scope R_scope.

(** ---- C45: construction and interpolation of the current pattern ---- *)
Theorem c45_exactly_one_group : forall a l p g, ~ exactly_one l p g -> mp_init a l p g = Err ValueError.
Proof. exact init_not_one. Qed.
Print Assumptions c45_exactly_one_group.
Theorem c45_group_choice : forall a l p g s, mp_init a l p g = Ok s -> exactly_one l p g /\ mp_pattern a = Ok (m_img s) /\ m_binned s = None /\
  (forall x, l = Some x -> m_laue s = x) /\ (forall x, p = Some x -> point_group_to_laue x = Some (m_laue s)) /\ (forall x, g = Some x -> space_group_to_laue x = Some (m_laue s)).
Proof. exact init_choice. Qed.
Print Assumptions c45_group_choice.
(** a pair of hemispheres is laid out side by side, north left *)
Theorem c45_hemispheres_side_by_side : forall h w w' a b l p g s, List.length a = (h * w)%nat -> List.length b = (h * w')%nat -> mp_init (Two ([h; w], a) ([h; w'], b)) l p g = Ok s ->
  i_h (m_img s) = h /\ i_w (m_img s) = (w + w')%nat /\
  forall r, (r < h)%nat -> (forall c, (c < w)%nat -> px (m_img s) r c = nth (r * w + c) a 0) /\ (forall c, (c < w')%nat -> px (m_img s) r (w + c) = nth (r * w' + c) b 0).
Proof. exact init_two. Qed.
Print Assumptions c45_hemispheres_side_by_side.
(** whatever was called before, interpolation without virtual binning samples the current pattern at every point, in order, whatever
    pseudo shape the number of points is factorised into, and leaves the pattern alone *)
Theorem c45_interpolation_is_pointwise : forall rnd fuel f s coords nc vb out s', reachable rnd fuel s -> (vb <= 1)%Z -> interpolate rnd f s coords nc vb = IOk out s' ->
  out = map (sample (m_img s) nc) coords /\ m_img s' = m_img s /\ m_binned s' = m_binned s /\ m_laue s' = m_laue s.
Proof. exact interp_plain. Qed.
Print Assumptions c45_interpolation_is_pointwise.
Theorem c45_interpolation_succeeds : forall rnd fuel f s coords nc vb, reachable rnd fuel s -> (1 <= Z.of_nat (List.length coords) < 65536)%Z -> (vb <= 1)%Z ->
  exists out s', interpolate rnd (S f) s coords nc vb = IOk out s'.
Proof. exact interp_succeeds. Qed.
Print Assumptions c45_interpolation_succeeds.
(** until something has been binned, a virtual binning is that of the current pattern *)
Theorem c45_first_virtual_binning : forall rnd fuel f s coords nc vb out s', reachable rnd fuel s -> m_binned s = None -> interpolate rnd f s coords nc vb = IOk out s' ->
  exists m, current_image s vb = Ok m /\ out = map (sample m nc) coords.
Proof. exact interp_first. Qed.
Print Assumptions c45_first_virtual_binning.
Theorem c45_cache_bounded : forall rnd fuel s, reachable rnd fuel s -> (List.length (m_factor s) <= 101)%nat.
Proof. exact cache_bounded. Qed.
Print Assumptions c45_cache_bounded.
Example c45_nonvacuous : forall rnd, exists s out s', reachable rnd 1 s /\ interpolate rnd 1 s [mkV 0 0 1; mkV 1 0 0] true 1 = IOk out s'.
Proof.
  intros rnd. assert (R : reachable rnd 1 (mkMP (mkI 4 4 ex44) None [] 11%Z)) by (exists (One ([4; 4]%nat, ex44)), (Some 11%Z), None, None; eexists; exists []; split; [reflexivity|constructor]).
  destruct (interp_succeeds rnd 1 0 _ [mkV 0 0 1; mkV 1 0 0] true 1 R) as [o [s' E]]; [cbn; lia|lia|]. eauto.
Qed.

(** ---- C100: repeated virtual binning ---- *)
(** Claim: interpolate(..., virtual_binning=b) looks at the current pattern binned by b.  Once something has been binned the copy is
    reused whatever b is, and it is not refreshed by normalize or apply_clahe. *)
Theorem c100_requested_binning_ignored : forall rnd fuel f s B coords nc vb out s', reachable rnd fuel s -> m_binned s = Some B -> (1 < vb)%Z -> interpolate rnd f s coords nc vb = IOk out s' ->
  out = map (sample B nc) coords.
Proof. exact stale. Qed.
Print Assumptions c100_requested_binning_ignored.
Theorem c100_copy_never_refreshed : forall rnd fuel s os s' B, reachable rnd fuel s -> mp_run rnd fuel s os s' -> m_binned s = Some B -> (forall b, ~ In (OBin b) os) -> m_binned s' = Some B.
Proof. exact stale_kept. Qed.
Print Assumptions c100_copy_never_refreshed.
Theorem c100_stale_binning_refuted : forall rnd, exists s0 s1 out2 s2 m4, mp_init (One ([4; 4]%nat, ex44)) (Some 11%Z) None None = Ok s0 /\ mp_step rnd 1 s0 (OInterp [zdir] true 2) = Some s1 /\
  interpolate rnd 1 s1 [zdir] true 4 = IOk out2 s2 /\ current_image s1 4 = Ok m4 /\ out2 <> map (sample m4 true) [zdir].
Proof. exact stale_witness. Qed.
Print Assumptions c100_stale_binning_refuted.

(** ---- C101: interpolated and normalised intensities ---- *)
Theorem c101_interpolated_in_range : forall m nc v x lo hi, (1 <= i_h m)%nat -> (1 <= i_w m)%nat -> pixels_within m lo hi -> sample m nc v = Some x -> lo <= x <= hi.
Proof. exact sample_range. Qed.
Print Assumptions c101_interpolated_in_range.
Theorem c101_exact_at_pixel_centres : forall m nc v r c, vunit v -> (r < i_h m)%nat -> (c < i_w m)%nat ->
  rosca_side_by_side v = ((2 * INR c + 1) / INR (i_w m) - 1, (2 * INR r + 1) / INR (i_h m) - 1) -> sample m nc v = Some (px m r c).
Proof. exact sample_centre. Qed.
Print Assumptions c101_exact_at_pixel_centres.
Theorem c101_length_irrelevant : forall m v k, 0 < k -> sample m true (vscale k v) = sample m true v.
Proof. exact sample_scale. Qed.
Print Assumptions c101_length_irrelevant.
Theorem c101_normalised_ranges : forall s s', (mp_normalize s "minmax" = MNormalised s' -> i_px (m_img s) <> [] -> (forall y, In y (i_px (m_img s')) -> 0 <= y < 1) /\ In 0 (i_px (m_img s'))) /\
  (mp_normalize s "zeromean" = MNormalised s' -> i_px (m_img s) <> [] -> fold_right Rplus 0 (i_px (m_img s')) = 0) /\
  (forall ty, ty <> "minmax"%string -> ty <> "zeromean"%string -> ty <> "standard"%string -> mp_normalize s ty = MValueError).
Proof. exact norm_ranges. Qed.
Print Assumptions c101_normalised_ranges.
Example c101_nonvacuous : vunit (mkV 0 0 1) /\ rosca_side_by_side (mkV 0 0 1) = ((2 * INR 0 + 1) / INR (i_w (mkI 1 2 [3; 4])) - 1, (2 * INR 0 + 1) / INR (i_h (mkI 1 2 [3; 4])) - 1).
Proof. split; [exact zdir_unit|]. rewrite rosca_z. cbn [i_w i_h]. simpl INR. f_equal; lra. Qed.

(** ---- C102: hemispheres do not mix ---- *)
(** away from one half pixel at the seam, directions of a hemisphere only see pixels of that hemisphere *)
Theorem c102_north_sees_north : forall m m' W nc v, (1 <= W)%nat -> i_w m = (2 * W)%nat -> (1 <= i_h m)%nat -> same_columns 0 W m m' -> vunit v -> 0 <= vz v -> fst (rosca_lambert v) <= 1 - 1 / INR W ->
  sample m nc v = sample m' nc v.
Proof. exact north_local. Qed.
Print Assumptions c102_north_sees_north.
Theorem c102_south_sees_south : forall m m' W nc v, (1 <= W)%nat -> i_w m = (2 * W)%nat -> (1 <= i_h m)%nat -> same_columns W (2 * W) m m' -> vunit v -> vz v < 0 -> -1 + 1 / INR W <= fst (rosca_lambert v) ->
  sample m nc v = sample m' nc v.
Proof. exact south_local. Qed.
Print Assumptions c102_south_sees_south.
(** Claim: the value at a northern direction is determined by the northern hemisphere.  At (1,0,0) the last northern pixel is averaged
    with the first southern one, which belongs to the opposite direction (-1,0,0). *)
Theorem c102_seam_value : forall m W k nc, (1 <= W)%nat -> i_w m = (2 * W)%nat -> i_h m = (2 * k + 1)%nat -> sample m nc (mkV 1 0 0) = Some ((px m k (W - 1) + px m k W) / 2).
Proof. exact seam_value. Qed.
Print Assumptions c102_seam_value.
Theorem c102_seam_refuted : forall nc, exists m m', i_w m = 4%nat /\ i_h m = 1%nat /\ same_columns 0 2 m m' /\ sample m nc (mkV 1 0 0) <> sample m' nc (mkV 1 0 0).
Proof. exact seam_leak. Qed.
Print Assumptions c102_seam_refuted.
(** binning by a factor that does not divide the hemisphere width mixes the hemispheres in one column *)
Theorem c102_binned_seam_refuted : exists h W b m m' p p', i_h m = h /\ i_w m = (2 * W)%nat /\ same_columns 0 W m m' /\ pool b m = Ok p /\ pool b m' = Ok p' /\ (W mod b <> 0)%nat /\ px p 0 (W / b) <> px p' 0 (W / b).
Proof. exact pool_leak. Qed.
Print Assumptions c102_binned_seam_refuted.
Example c102_nonvacuous : vunit (mkV 0 0 1) /\ 0 <= vz (mkV 0 0 1) /\ fst (rosca_lambert (mkV 0 0 1)) <= 1 - 1 / INR 2.
Proof. split; [exact zdir_unit|]. split; [simpl; lra|]. pose proof rosca_z as E. unfold rosca_side_by_side in E. apply (f_equal fst) in E. cbn [fst vz] in E. destruct (Rlt_dec 1 0); [lra|]. simpl INR. lra. Qed.

(** ---- C103: the energy-weighted pattern read from an EMsoft file ---- *)
Theorem c103_energy_weighted_average : forall h w accum north south sg r, read_master_pattern 1 h w accum north south sg = Some r -> List.length north = List.length accum -> List.length south = List.length accum ->
  (forall a, In a accum -> 0 <= suml a) -> exists pdf, List.length pdf = List.length accum /\ fold_right Rplus 0 pdf = 1 /\ (forall p, In p pdf -> 0 <= p <= 1) /\
    (forall k, (k < List.length accum)%nat -> nth k pdf 0 * suml (map suml accum) = suml (nth k accum [])) /\
    forall s, r = Ok s -> i_h (m_img s) = h /\ i_w (m_img s) = (w + w)%nat /\ space_group_to_laue sg = Some (m_laue s) /\
      forall i c lo hi, (i < h)%nat -> (c < w)%nat ->
        px (m_img s) i c = fold_right Rplus 0 (map (fun e => fst e * nth (i * w + c) (snd e) 0) (combine pdf north)) /\
        px (m_img s) i (w + c) = fold_right Rplus 0 (map (fun e => fst e * nth (i * w + c) (snd e) 0) (combine pdf south)) /\
        ((forall q, In q north -> lo <= nth (i * w + c) q 0 <= hi) -> lo <= px (m_img s) i c <= hi) /\
        ((forall q, In q south -> lo <= nth (i * w + c) q 0 <= hi) -> lo <= px (m_img s) i (w + c) <= hi).
Proof. exact read_single. Qed.
Print Assumptions c103_energy_weighted_average.
(** Claim: files of crystals with several atom sites load.  With several sites and energies the constructor rejects the result. *)
Theorem c103_several_sites_refuted : forall n h w accum north south sg r, n <> 1%nat -> List.length accum <> 1%nat -> read_master_pattern n h w accum north south sg = Some r -> r = Err ValueError.
Proof. exact read_multi. Qed.
Print Assumptions c103_several_sites_refuted.
Example c103_nonvacuous : exists s, read_master_pattern 1 1 1 [[1]; [3]] [[4]; [8]] [[0]; [4]] 225 = Some (Ok s).
Proof.
  unfold read_master_pattern, energy_pdf. cbn [map]. destruct (Req_EM_T _ 0) as [Z|]; [exfalso; revert Z; unfold suml; simpl; lra|]. eexists. reflexivity.
Qed.

(** ---- C104: interpolating no points ---- *)
(** Claim: interpolate terminates for every number of points.  With none the factorisation of 0 never ends: no step budget suffices. *)
Theorem c104_empty_interpolation_hangs_refuted : forall rnd fuel f s nc vb, reachable rnd fuel s -> (vb <= 1)%Z -> interpolate rnd f s [] nc vb = IHang.
Proof. exact interp_empty. Qed.
Print Assumptions c104_empty_interpolation_hangs_refuted.
