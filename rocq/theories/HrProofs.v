(** Projection of a batch of deformed grains (project_hrebsd.py): facts behind C271. *)
From Coq Require Import String.
From Verif Require Import Base BaseFacts QuatModel QuatSpec QuatProofs OriModel OriSpec OriProofs OriAxProofs Se3Model Se3Spec Se3Proofs Se3Exp GeomModel GeomSpec GeomProofs SymModel SphereModel ExpModel MpModel MpSpec MpProofs.
Open Scope R_scope.

Lemma hrebsd_coords_scale a b v q f k shape bin : 0 < k -> hrebsd_coords a b v q (mscale k f) shape bin = hrebsd_coords a b v q f shape bin.
Proof.
  intros K. unfold hrebsd_coords. destruct shape as [h w], bin as [|bin]; [reflexivity|]. destruct (negb (Nat.eqb (h mod S bin) 0)); [reflexivity|].
  destruct (negb (Nat.eqb (w mod S bin) 0)); [reflexivity|]. f_equal. apply map_ext. intros p. apply hrebsd_scale; exact K.
Qed.
Lemma hrebsd_coord_rot a b v q r f p : unit_q q -> unit_q r -> (forall x, mapp f x = qu_apply r x) ->
  hrebsd_coord a b v q f p = hrebsd_coord a b v (qu_prod_raw r q) mid p.
Proof.
  intros U W F. unfold hrebsd_coord. destruct (se3_exp_map_split _) as [rr t]. destruct (vnormalize (vadd _ _)) as [c|]; [|reflexivity].
  rewrite F, mapp_mid, qu_apply_prod. reflexivity.
Qed.
Lemma hrebsd_coords_rot a b v q r f shape bin : unit_q q -> unit_q r -> (forall x, mapp f x = qu_apply r x) ->
  hrebsd_coords a b v q f shape bin = hrebsd_coords a b v (qu_prod_raw r q) mid shape bin.
Proof.
  intros U W F. unfold hrebsd_coords. destruct shape as [h w], bin as [|bin]; [reflexivity|]. destruct (negb (Nat.eqb (h mod S bin) 0)); [reflexivity|].
  destruct (negb (Nat.eqb (w mod S bin) 0)); [reflexivity|]. f_equal. apply map_ext. intros p. apply hrebsd_coord_rot; assumption.
Qed.
Lemma coords_len a b v q f h w bin l : hrebsd_coords a b v q f (h, w) bin = HCoords l -> List.length l = (h / bin * (w / bin))%nat.
Proof.
  unfold hrebsd_coords. destruct bin as [|bin]; [discriminate|]. destruct (negb (Nat.eqb (h mod S bin) 0)); [discriminate|].
  destruct (negb (Nat.eqb (w mod S bin) 0)); [discriminate|]. intros E; injection E as <-. rewrite map_length, mesh_length, !axis_length. reflexivity.
Qed.
Lemma coords_units a b v q f shape bin l u : hrebsd_coords a b v q f shape bin = HCoords l -> In (Some u) l -> vunit u.
Proof.
  unfold hrebsd_coords. destruct shape as [h w], bin as [|bin]; [discriminate|]. destruct (negb (Nat.eqb (h mod S bin) 0)); [discriminate|].
  destruct (negb (Nat.eqb (w mod S bin) 0)); [discriminate|]. intros E; injection E as <-. intros H. apply in_map_iff in H. destruct H as [p [E _]].
  exact (hrebsd_unit _ _ _ _ _ _ _ E).
Qed.
Lemma concat_len {A} (L : list (list A)) n : (forall g l, nth_error L g = Some l -> List.length l = n) -> List.length (concat L) = (List.length L * n)%nat.
Proof.
  induction L as [|l L IH]; intros H; [reflexivity|]. cbn [concat List.length]. rewrite app_length, IH by (intros g; apply (H (S g))). rewrite (H 0%nat l eq_refl). lia.
Qed.
Lemma parts_grain (grains : list (twist * quat * mat)) (parts : list (list (option vec))) g l : List.length parts = List.length grains -> nth_error parts g = Some l ->
  exists v q f, nth_error grains g = Some (v, q, f).
Proof.
  intros L H. assert (g < List.length grains)%nat by (rewrite <- L; apply nth_error_Some; congruence).
  destruct (nth_error grains g) as [[[v q] f]|] eqn:E; [eauto|]. apply nth_error_None in E. lia.
Qed.
Lemma batch_len a b grains h w bin coords : batch_coords a b grains (h, w) bin coords -> List.length coords = (List.length grains * (h / bin * (w / bin)))%nat.
Proof.
  intros (parts & E & L & P). rewrite <- L, <- (concat_len parts).
  - rewrite <- E, map_length. reflexivity.
  - intros g l H. destruct (parts_grain _ _ _ _ L H) as (v & q & f & G). exact (coords_len _ _ _ _ _ _ _ _ _ (P _ _ _ _ _ G H)).
Qed.
Lemma batch_units a b grains shape bin coords u : batch_coords a b grains shape bin coords -> In u coords -> vunit u.
Proof.
  intros (parts & E & L & P) H. apply (in_map Some) in H. rewrite E in H. apply in_concat in H. destruct H as [l [Hl Hu]].
  apply In_nth_error in Hl. destruct Hl as [g Hg]. destruct (parts_grain _ _ _ _ L Hg) as (v & q & f & G). exact (coords_units _ _ _ _ _ _ _ _ _ (P _ _ _ _ _ G Hg) Hu).
Qed.
(** the pixel of grain g, row i, column j stands at g*rows*columns + i*columns + j and is the direction of that pixel *)
Lemma nth_concat {A} (d : A) (L : list (list A)) n : (forall g l, nth_error L g = Some l -> List.length l = n) -> forall g l t, nth_error L g = Some l -> (t < n)%nat ->
  nth (g * n + t) (concat L) d = nth t l d.
Proof.
  induction L as [|x L IH]; intros H g l t G Ht; [destruct g; discriminate|]. cbn [concat]. pose proof (H 0%nat x eq_refl) as Lx. destruct g as [|g].
  - injection G as ->. cbn [Nat.mul Nat.add]. apply app_nth1. lia.
  - rewrite app_nth2 by (cbn; lia). rewrite Lx. replace (S g * n + t - n)%nat with (g * n + t)%nat by (cbn; lia). apply IH; [|exact G|exact Ht]. intros g'; apply (H (S g')).
Qed.
Lemma batch_nth a b grains h w bin coords g v q f t : batch_coords a b grains (h, w) bin coords -> nth_error grains g = Some (v, q, f) -> (t < h / bin * (w / bin))%nat ->
  Some (nth (g * (h / bin * (w / bin)) + t) coords vzero) = hrebsd_coord a b v q f (nth t (mesh_ij (axis_coords h bin) (axis_coords w bin)) (0, 0)).
Proof.
  intros (parts & E & L & P) G Ht. destruct (nth_error parts g) as [l|] eqn:Hl.
  2:{ apply nth_error_None in Hl. assert (g < List.length grains)%nat by (apply nth_error_Some; congruence). lia. }
  pose proof (P _ _ _ _ _ G Hl) as EC.
  assert (PL : forall g' l', nth_error parts g' = Some l' -> List.length l' = (h / bin * (w / bin))%nat).
  { intros g' l' H. destruct (parts_grain _ _ _ _ L H) as (v' & q' & f' & G'). exact (coords_len _ _ _ _ _ _ _ _ _ (P _ _ _ _ _ G' H)). }
  rewrite <- (map_nth Some), E, (nth_concat (Some vzero) parts _ PL g l t Hl Ht).
  revert EC. pose proof (PL _ _ Hl) as LL. unfold hrebsd_coords. destruct bin as [|bin]; [discriminate|]. destruct (negb (Nat.eqb (h mod S bin) 0)); [discriminate|].
  destruct (negb (Nat.eqb (w mod S bin) 0)); [discriminate|]. intros EC; injection EC as EC. subst l. rewrite map_length in LL.
  rewrite (nth_indep _ (Some vzero) (hrebsd_coord a b v q f (0, 0))) by (rewrite map_length; lia). rewrite map_nth. reflexivity.
Qed.
Lemma sample_unit m v : exists x, sample m false v = Some x.
Proof. unfold sample. eexists; reflexivity. Qed.
Lemma project_ok rnd fuel f s a b grains h w bin coords out s' lo hi : reachable rnd fuel s -> batch_coords a b grains (h, w) bin coords ->
  (1 <= i_h (m_img s))%nat -> (1 <= i_w (m_img s))%nat -> pixels_within (m_img s) lo hi -> project_hrebsd rnd f s coords 1 = IOk out s' ->
  List.length out = (List.length grains * (h / bin * (w / bin)))%nat /\ (forall o, In o out -> exists x, o = Some x /\ lo <= x <= hi) /\ m_img s' = m_img s.
Proof.
  intros R B H1 W1 P E. unfold project_hrebsd in E. apply (interp_plain rnd fuel) in E; [|exact R|lia]. destruct E as (-> & M & _). rewrite map_length.
  split; [exact (batch_len _ _ _ _ _ _ _ B)|]. split; [|exact M]. intros o Ho. apply in_map_iff in Ho. destruct Ho as [v [<- _]].
  destruct (sample_unit (m_img s) v) as [x X]. exists x. split; [exact X|]. exact (sample_range _ _ _ _ _ _ H1 W1 P X).
Qed.
Lemma project_pixel rnd fuel f s a b grains h w bin coords out s' g v q fi t : reachable rnd fuel s -> batch_coords a b grains (h, w) bin coords ->
  project_hrebsd rnd f s coords 1 = IOk out s' -> nth_error grains g = Some (v, q, fi) -> (t < h / bin * (w / bin))%nat ->
  exists u, hrebsd_coord a b v q fi (nth t (mesh_ij (axis_coords h bin) (axis_coords w bin)) (0, 0)) = Some u /\
    nth (g * (h / bin * (w / bin)) + t) out None = Some (grid_sample (m_img s) (rosca_side_by_side u)).
Proof.
  intros R B E G Ht. unfold project_hrebsd in E. apply (interp_plain rnd fuel) in E; [|exact R|lia]. destruct E as (-> & M & _).
  pose proof (batch_nth _ _ _ _ _ _ _ _ _ _ _ t B G Ht) as X. eexists. split; [symmetry; exact X|].
  assert (LT : (g * (h / bin * (w / bin)) + t < List.length coords)%nat).
  { rewrite (batch_len _ _ _ _ _ _ _ B). assert (g < List.length grains)%nat by (apply nth_error_Some; congruence). nia. }
  rewrite (nth_indep _ None (sample (m_img s) false vzero)) by (rewrite map_length; exact LT). rewrite map_nth. reflexivity.
Qed.
