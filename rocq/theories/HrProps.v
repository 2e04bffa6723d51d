(** Theorems for C271: patterns of deformed grains. *)
From Coq Require Import String.
From Verif Require Import Base BaseFacts QuatModel QuatSpec QuatProofs OriModel OriSpec OriProofs OriAxProofs Se3Model Se3Spec Se3Proofs Se3Exp GeomModel GeomSpec GeomProofs SymModel SphereModel ExpModel MpModel MpSpec MpProofs HrProofs.
Open Scope R_scope.

(** one value per grain and binned pixel, each within the range of the master pattern, which is left alone *)
Theorem c271_values_in_range : forall rnd fuel f s a b grains h w bin coords out s' lo hi, reachable rnd fuel s -> batch_coords a b grains (h, w) bin coords ->
  (1 <= i_h (m_img s))%nat -> (1 <= i_w (m_img s))%nat -> pixels_within (m_img s) lo hi -> project_hrebsd rnd f s coords 1 = IOk out s' ->
  List.length out = (List.length grains * (h / bin * (w / bin)))%nat /\ (forall o, In o out -> exists x, o = Some x /\ lo <= x <= hi) /\ m_img s' = m_img s.
Proof. exact project_ok. Qed.
Print Assumptions c271_values_in_range.
(** pixel t of grain g is the pattern sampled at that pixel's direction *)
Theorem c271_pixel_of_grain : forall rnd fuel f s a b grains h w bin coords out s' g v q fi t, reachable rnd fuel s -> batch_coords a b grains (h, w) bin coords ->
  project_hrebsd rnd f s coords 1 = IOk out s' -> nth_error grains g = Some (v, q, fi) -> (t < h / bin * (w / bin))%nat ->
  exists u, hrebsd_coord a b v q fi (nth t (mesh_ij (axis_coords h bin) (axis_coords w bin)) (0, 0)) = Some u /\
    nth (g * (h / bin * (w / bin)) + t) out None = Some (grid_sample (m_img s) (rosca_side_by_side u)).
Proof. exact project_pixel. Qed.
Print Assumptions c271_pixel_of_grain.
(** a volume change is invisible; a deformation that is a rotation is the same as a rotated grain *)
Theorem c271_volume_change_invisible : forall a b v q f k shape bin, 0 < k -> hrebsd_coords a b v q (mscale k f) shape bin = hrebsd_coords a b v q f shape bin.
Proof. exact hrebsd_coords_scale. Qed.
Print Assumptions c271_volume_change_invisible.
Theorem c271_rotation_part_is_orientation : forall a b v q r f shape bin, unit_q q -> unit_q r -> (forall x, mapp f x = qu_apply r x) ->
  hrebsd_coords a b v q f shape bin = hrebsd_coords a b v (qu_prod_raw r q) mid shape bin.
Proof. exact hrebsd_coords_rot. Qed.
Print Assumptions c271_rotation_part_is_orientation.
(** a detector of 2 x 2 pixels binned by 2; an undeformed grain and one whose deformation is a half turn about z *)
Definition half_z : mat := mkM (-1) 0 0 0 (-1) 0 0 0 1.
Lemma half_z_rot x : mapp half_z x = qu_apply (mkQ 0 0 0 1) x.
Proof. destruct x as [x y z]. unfold qu_apply, mapp, half_z, vcross; cbn. apply vec_eq; cbn; ring. Qed.
Lemma one_pixel q f : unit_q q -> (f = mid \/ f = half_z) -> exists u, hrebsd_coords no_mask no_mask (vzero, vzero) q f (2, 2)%nat 2 = HCoords [Some u].
Proof.
  intros U. assert (M : forall q, unit_q q -> exists u, hrebsd_coord no_mask no_mask (vzero, vzero) q mid (1/2 * (INR 2 - 1), 1/2 * (INR 2 - 1)) = Some u).
  { intros p Up. rewrite hrebsd_undeformed by exact Up. rewrite !vmask_none, exp_zero, mapp_mid. destruct (vnormalize _) eqn:E; [eexists; reflexivity|].
    apply vnormalize_none in E. apply (f_equal vx) in E. unfold plane in E. cbn in E. lra. }
  assert (Z : unit_q (mkQ 0 0 0 1)) by (unfold unit_q, qdot; cbn; lra).
  intros [-> | ->].
  - destruct (M q U) as [u Hu]. exists u. unfold hrebsd_coords. cbn [Nat.modulo Nat.divmod Nat.eqb negb Nat.sub fst snd]. unfold axis_coords. cbn [Nat.div Nat.divmod linspace fst]. cbn [mesh_ij flat_map map app]. rewrite Hu. reflexivity.
  - rewrite (hrebsd_coords_rot _ _ _ _ _ _ _ _ U Z half_z_rot). destruct (M (qu_prod_raw (mkQ 0 0 0 1) q)) as [u Hu].
    { unfold unit_q, qdot, qu_prod_raw in *. cbn in *. nra. }
    exists u. unfold hrebsd_coords. cbn [Nat.modulo Nat.divmod Nat.eqb negb Nat.sub fst snd]. unfold axis_coords. cbn [Nat.div Nat.divmod linspace fst]. cbn [mesh_ij flat_map map app]. rewrite Hu. reflexivity.
Qed.
Example c271_case : forall rnd, exists coords s out s', reachable rnd 1 s /\
  batch_coords no_mask no_mask [((vzero, vzero), mkQ 1 0 0 0, mid); ((vzero, vzero), mkQ 1 0 0 0, half_z)] (2, 2)%nat 2 coords /\
  pixels_within (m_img s) 0 1 /\ project_hrebsd rnd 1 s coords 1 = IOk out s'.
Proof.
  intros rnd. assert (U : unit_q (mkQ 1 0 0 0)) by (unfold unit_q, qdot; cbn; lra).
  destruct (one_pixel _ mid U (or_introl eq_refl)) as [u Hu], (one_pixel _ half_z U (or_intror eq_refl)) as [w Hw].
  assert (R : reachable rnd 1 (mkMP (mkI 4 4 ex44) None [] 11%Z)) by (exists (One ([4; 4]%nat, ex44)), (Some 11%Z), None, None; eexists; exists []; split; [reflexivity|constructor]).
  destruct (interp_succeeds rnd 1 0 (mkMP (mkI 4 4 ex44) None [] 11%Z) [u; w] false 1 R ltac:(cbn; lia) ltac:(lia)) as (out & s' & E).
  exists [u; w], (mkMP (mkI 4 4 ex44) None [] 11%Z), out, s'. split; [exact R|]. split; [|split; [|exact E]].
  - exists [[Some u]; [Some w]]. split; [reflexivity|]. split; [reflexivity|]. intros [|[|g]] v q f l G P; cbn in G, P; try (destruct g; discriminate);
    injection G as <- <- <-; injection P as <-; assumption.
  - intros r c Hr Hc. cbn in Hr, Hc. do 4 (destruct r as [|r]; [do 4 (destruct c as [|c]; [cbn; lra|]); lia|]). lia.
Qed.
