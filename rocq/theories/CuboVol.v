From Coquelicot Require Import Coquelicot.
From Verif Require Import Base BaseFacts QuatModel OriModel CuboModel CuboSpec CuboProofs CuboLift.

Definition vth (s m : R) := s * PI / (12 * m).
Definition vA (t : R) := / (sqrt 2 * (sqrt 2 - cos t)).
Definition vk (t : R) := (3 - 2 * sqrt 2 * cos t) * vA t.
Definition vG (s m b : R) := kap^2 * m^2 * (4 - 2 * (m/b)^2 * vk (vth s m)) * vA (vth s m).
Definition vZ (s m b : R) := kap * b * (1 - (m/b)^2 * vk (vth s m)).

Lemma vkk t : sqrt 2 - cos t <> 0 -> kk (cos t) = vk t.
Proof. intros. unfold kk, vk, vA. pose proof r2_pos. field. split; lra. Qed.
Lemma cos_lt_r2 t : 0 < sqrt 2 - cos t.
Proof. pose proof (COS_bound t). pose proof r2_pos. lra. Qed.

Lemma closed_form s m b : 0 < s < m -> m < b ->
  cu2ho P012 (mkV s m b) = mkV (sqrt (vG s m b) * sin (vth s m)) (sqrt (vG s m b) * (cos (vth s m) - sqrt 2 / 2)) (vZ s m b).
Proof.
  intros Hs Hm. rewrite cu2ho_abs. cbn [gather3 pidx comp vx vy vz abs3]. rewrite !Rabs_right by lra.
  destruct (cu2ho_sorted (s,m,b)) as [[X Y] Z] eqn:EQ.
  destruct (fwd_props s m b X Y Z) as (_ & HX & HY & HZ & _); try lra; auto.
  unfold vcopysign. cbn [scatter3 vx vy vz]. unfold copysign.
  destruct (Rle_dec 0 s), (Rle_dec 0 m), (Rle_dec 0 b); try lra. rewrite !Rabs_right by lra.
  destruct (fwd_form s m b) as (F & EQ' & F0 & F2 & Hu & F1); try lra. rewrite EQ' in EQ. injection EQ as <- <- <-.
  assert (Et : cu_trig s m = vth s m) by (unfold cu_trig; destruct (Req_EM_T m 0); [lra|reflexivity]).
  rewrite Et in *. pose proof (cos_lt_r2 (vth s m)) as HD. rewrite vkk in * by lra.
  assert (EF : F = sqrt (vG s m b)).
  { symmetry. apply sqrt_of_sq; [lra|]. rewrite F2. unfold vG, vA. pose proof r2_pos. field. lra. }
  rewrite EF. unfold vZ. apply vec_eq; cbn [vx vy vz]; reflexivity.
Qed.
Lemma vG_pos s m b : 0 < s < m -> m < b -> 0 < vG s m b.
Proof.
  intros Hs Hm. destruct (fwd_form s m b) as (F & EQ' & F0 & F2 & Hu & F1); try lra.
  assert (Et : cu_trig s m = vth s m) by (unfold cu_trig; destruct (Req_EM_T m 0); [lra|reflexivity]).
  rewrite Et in *. pose proof (cos_lt_r2 (vth s m)) as HD. rewrite vkk in * by lra.
  assert (E : vG s m b = F^2) by (rewrite F2; unfold vG, vA; pose proof r2_pos; field; lra).
  rewrite E. apply pow_lt, F1. lra.
Qed.

(** derivatives *)
Definition kt (t : R) := sqrt 2 * sin t * vA t * (2 - vk t).
Definition At (t : R) := - (sqrt 2 * sin t * vA t * vA t).
Lemma d_vA t : is_derive vA t (At t).
Proof.
  unfold vA, At. pose proof (cos_lt_r2 t). pose proof r2_pos. auto_derive. apply Rgt_not_eq, Rmult_lt_0_compat; lra.
  unfold vA. field. lra.
Qed.
Lemma d_vk t : is_derive vk t (kt t).
Proof.
  unfold vk, kt, vk, vA. pose proof (cos_lt_r2 t). pose proof r2_pos. auto_derive. apply Rgt_not_eq, Rmult_lt_0_compat; lra.
  field. lra.
Qed.
Lemma d_vth_s s m : 0 < m -> is_derive (fun t => vth t m) s (PI/(12*m)).
Proof. intros. unfold vth. auto_derive; [exact I|]. field; lra. Qed.
Lemma d_vth_m s m : 0 < m -> is_derive (fun t => vth s t) m (- s * PI / (12*m^2)).
Proof. intros. unfold vth. auto_derive; [lra|]. field; lra. Qed.
(** derivative along a curve th(t), mm(t), bb(t) of a function of (k, A, m, b) *)
Lemma d_G_aux (kf af mm bb : R -> R) t k' a' m' b' : 0 < bb t -> is_derive kf t k' -> is_derive af t a' -> is_derive mm t m' -> is_derive bb t b' ->
  is_derive (fun u => kap^2 * mm u^2 * (4 - 2 * (mm u/bb u)^2 * kf u) * af u) t
   (kap^2*mm t^2*(- 2*(mm t/bb t)^2 * k' * af t + (4 - 2*(mm t/bb t)^2*kf t) * a')
    + kap^2 * af t * (8*mm t - 8*mm t^3*kf t/bb t^2) * m' + 4*kap^2*af t*mm t^4*kf t/bb t^3 * b').
Proof.
  intros Hb K A Hm Hbb. auto_derive.
  - repeat split; try (eexists; eassumption). lra.
  - replace (Derive (fun x : R => kf x) t) with k' by (symmetry; exact (is_derive_unique _ _ _ K)); replace (Derive (fun x : R => af x) t) with a' by (symmetry; exact (is_derive_unique _ _ _ A)); replace (Derive (fun x : R => mm x) t) with m' by (symmetry; exact (is_derive_unique _ _ _ Hm)); replace (Derive (fun x : R => bb x) t) with b' by (symmetry; exact (is_derive_unique _ _ _ Hbb)). field. lra.
Qed.
Lemma d_Z_aux (kf mm bb : R -> R) t k' m' b' : 0 < bb t -> is_derive kf t k' -> is_derive mm t m' -> is_derive bb t b' ->
  is_derive (fun u => kap * bb u * (1 - (mm u/bb u)^2 * kf u)) t
   (- kap * (mm t^2/bb t) * k' + - 2*kap*mm t*kf t/bb t * m' + kap * (1 + mm t^2*kf t/bb t^2) * b').
Proof.
  intros Hb K Hm Hbb. auto_derive.
  - repeat split; try (eexists; eassumption). lra.
  - replace (Derive (fun x : R => kf x) t) with k' by (symmetry; exact (is_derive_unique _ _ _ K)); replace (Derive (fun x : R => mm x) t) with m' by (symmetry; exact (is_derive_unique _ _ _ Hm)); replace (Derive (fun x : R => bb x) t) with b' by (symmetry; exact (is_derive_unique _ _ _ Hbb)). field. lra.
Qed.
Lemma d_G_gen (th mm bb : R -> R) t th' m' b' : 0 < bb t -> is_derive th t th' -> is_derive mm t m' -> is_derive bb t b' ->
  is_derive (fun u => kap^2 * mm u^2 * (4 - 2 * (mm u/bb u)^2 * vk (th u)) * vA (th u)) t
   (kap^2*mm t^2*(- 2*(mm t/bb t)^2 * (th' * kt (th t)) * vA (th t) + (4 - 2*(mm t/bb t)^2*vk (th t)) * (th' * At (th t)))
    + kap^2 * vA (th t) * (8*mm t - 8*mm t^3*vk (th t)/bb t^2) * m' + 4*kap^2*vA (th t)*mm t^4*vk (th t)/bb t^3 * b').
Proof.
  intros Hb Ht Hm Hbb.
  apply (d_G_aux (fun u => vk (th u)) (fun u => vA (th u)) mm bb t (th' * kt (th t)) (th' * At (th t)) m' b' Hb); auto.
  - apply (is_derive_comp vk th); [apply d_vk|exact Ht].
  - apply (is_derive_comp vA th); [apply d_vA|exact Ht].
Qed.
Lemma d_Z_gen (th mm bb : R -> R) t th' m' b' : 0 < bb t -> is_derive th t th' -> is_derive mm t m' -> is_derive bb t b' ->
  is_derive (fun u => kap * bb u * (1 - (mm u/bb u)^2 * vk (th u))) t
   (- kap * (mm t^2/bb t) * (th' * kt (th t)) + - 2*kap*mm t*vk (th t)/bb t * m' + kap * (1 + mm t^2*vk (th t)/bb t^2) * b').
Proof.
  intros Hb Ht Hm Hbb. apply (d_Z_aux (fun u => vk (th u)) mm bb t (th' * kt (th t)) m' b' Hb); auto.
  apply (is_derive_comp vk th); [apply d_vk|exact Ht].
Qed.
Lemma d_X_gen (G th : R -> R) (t g' th' : R) : 0 < G t -> is_derive G t g' -> is_derive th t th' ->
  is_derive (fun u => sqrt (G u) * sin (th u)) t (g' / (2 * sqrt (G t)) * sin (th t) + sqrt (G t) * cos (th t) * th').
Proof.
  intros P Hg Ht. assert (0 < sqrt (G t)) by (apply sqrt_lt_R0; lra).
  auto_derive; [repeat split; try (eexists; eassumption); lra|].
  replace (Derive (fun x : R => G x) t) with g' by (symmetry; exact (is_derive_unique _ _ _ Hg)).
  replace (Derive (fun x : R => th x) t) with th' by (symmetry; exact (is_derive_unique _ _ _ Ht)). field; lra.
Qed.
Lemma d_Y_gen (G th : R -> R) (t g' th' : R) : 0 < G t -> is_derive G t g' -> is_derive th t th' ->
  is_derive (fun u => sqrt (G u) * (cos (th u) - sqrt 2 / 2)) t (g' / (2 * sqrt (G t)) * (cos (th t) - sqrt 2 / 2) - sqrt (G t) * sin (th t) * th').
Proof.
  intros P Hg Ht. assert (0 < sqrt (G t)) by (apply sqrt_lt_R0; lra).
  auto_derive; [repeat split; try (eexists; eassumption); lra|].
  replace (Derive (fun x : R => G x) t) with g' by (symmetry; exact (is_derive_unique _ _ _ Hg)).
  replace (Derive (fun x : R => th x) t) with th' by (symmetry; exact (is_derive_unique _ _ _ Ht)). field; lra.
Qed.

(** the algebra: the determinant of the Jacobian written with the partial derivatives *)
Lemma det_algebra F S C Q Gs Gm' Gb' ts tm zs zm zb : F <> 0 ->
  mdet (mkM (Gs/(2*F)*S + F*C*ts) (Gm'/(2*F)*S + F*C*tm) (Gb'/(2*F)*S + F*C*0)
            (Gs/(2*F)*Q - F*S*ts) (Gm'/(2*F)*Q - F*S*tm) (Gb'/(2*F)*Q - F*S*0)
            zs zm zb)
  = (S*S + C*Q)/2 * (- zs*(- Gb' * tm) + zm * (- (Gb' * ts)) + zb * (ts*Gm' - Gs*tm)) .
Proof. intros. unfold mdet. cbn [m00 m01 m02 m10 m11 m12 m20 m21 m22]. field. auto. Qed.

Lemma volume s m b : 0 < s < m -> m < b -> exists J, jacobian_at (cu2ho P012) (mkV s m b) J /\ mdet J = 1.
Proof.
  intros Hs Hm. assert (M0 : 0 < m) by lra. assert (B0 : 0 < b) by lra.
  pose proof (vG_pos s m b Hs Hm) as HG. assert (HF : 0 < sqrt (vG s m b)) by (apply sqrt_lt_R0; lra).
  set (ts := PI/(12*m)). set (tm := - s * PI / (12*m^2)).
  pose proof (is_derive_id s) as Is. pose proof (is_derive_id m) as Im. pose proof (is_derive_id b) as Ib.
  pose proof (d_vth_s s m M0) as Ts. pose proof (d_vth_m s m M0) as Tm. fold ts in Ts. fold tm in Tm.
  pose proof (d_G_gen (fun t => vth t m) (fun _ => m) (fun _ => b) s ts 0 0 B0 Ts (is_derive_const m s) (is_derive_const b s)) as Gs.
  pose proof (d_G_gen (fun t => vth s t) (fun t => t) (fun _ => b) m tm 1 0 B0 Tm Im (is_derive_const b m)) as Gm'.
  pose proof (d_G_gen (fun t => vth s m) (fun _ => m) (fun t => t) b 0 0 1 B0 (is_derive_const (vth s m) b) (is_derive_const m b) Ib) as Gb'.
  pose proof (d_Z_gen (fun t => vth t m) (fun _ => m) (fun _ => b) s ts 0 0 B0 Ts (is_derive_const m s) (is_derive_const b s)) as Zs.
  pose proof (d_Z_gen (fun t => vth s t) (fun t => t) (fun _ => b) m tm 1 0 B0 Tm Im (is_derive_const b m)) as Zm'.
  pose proof (d_Z_gen (fun t => vth s m) (fun _ => m) (fun t => t) b 0 0 1 B0 (is_derive_const (vth s m) b) (is_derive_const m b) Ib) as Zb'.
  cbv beta in *.
  pose proof (d_X_gen (fun t => vG t m b) (fun t => vth t m) s _ ts HG Gs Ts) as Xs. pose proof (d_Y_gen (fun t => vG t m b) (fun t => vth t m) s _ ts HG Gs Ts) as Ys.
  pose proof (d_X_gen (fun t => vG s t b) (fun t => vth s t) m _ tm HG Gm' Tm) as Xm. pose proof (d_Y_gen (fun t => vG s t b) (fun t => vth s t) m _ tm HG Gm' Tm) as Ym.
  pose proof (d_X_gen (fun t => vG s m t) (fun t => vth s m) b _ 0 HG Gb' (is_derive_const (vth s m) b)) as Xb. pose proof (d_Y_gen (fun t => vG s m t) (fun t => vth s m) b _ 0 HG Gb' (is_derive_const (vth s m) b)) as Yb.
  cbv beta in *.
  eexists (mkM _ _ _ _ _ _ _ _ _). split.
  - unfold jacobian_at. cbn [vx vy vz m00 m01 m02 m10 m11 m12 m20 m21 m22].
    assert (Ls : locally s (fun t => 0 < t < m)). { apply (locally_interval _ s 0 m); simpl; intros; lra. }
    assert (Lm : locally m (fun t => s < t < b)). { apply (locally_interval _ m s b); simpl; intros; lra. }
    assert (Lb : locally b (fun t => m < t)). { apply (locally_interval _ b m p_infty); simpl; auto. }
    repeat apply conj; apply is_derive_Reals.
    + eapply is_derive_ext_loc; [|exact Xs]. eapply filter_imp; [|exact Ls]. intros t Ht. cbv beta. rewrite closed_form by lra. reflexivity.
    + eapply is_derive_ext_loc; [|exact Xm]. eapply filter_imp; [|exact Lm]. intros t Ht. cbv beta. rewrite closed_form by lra. reflexivity.
    + eapply is_derive_ext_loc; [|exact Xb]. eapply filter_imp; [|exact Lb]. intros t Ht. cbv beta. rewrite closed_form by lra. reflexivity.
    + eapply is_derive_ext_loc; [|exact Ys]. eapply filter_imp; [|exact Ls]. intros t Ht. cbv beta. rewrite closed_form by lra. reflexivity.
    + eapply is_derive_ext_loc; [|exact Ym]. eapply filter_imp; [|exact Lm]. intros t Ht. cbv beta. rewrite closed_form by lra. reflexivity.
    + eapply is_derive_ext_loc; [|exact Yb]. eapply filter_imp; [|exact Lb]. intros t Ht. cbv beta. rewrite closed_form by lra. reflexivity.
    + eapply is_derive_ext_loc; [|exact Zs]. eapply filter_imp; [|exact Ls]. intros t Ht. cbv beta. rewrite closed_form by lra. reflexivity.
    + eapply is_derive_ext_loc; [|exact Zm']. eapply filter_imp; [|exact Lm]. intros t Ht. cbv beta. rewrite closed_form by lra. reflexivity.
    + eapply is_derive_ext_loc; [|exact Zb']. eapply filter_imp; [|exact Lb]. intros t Ht. cbv beta. rewrite closed_form by lra. reflexivity.
  - rewrite det_algebra by lra.
    set (t := vth s m) in *.
    assert (ES : sin t * sin t + cos t * (cos t - sqrt 2/2) = / (2 * vA t)).
    { unfold vA. pose proof (cos_lt_r2 t). pose proof r2_pos. pose proof r2_sq as Q. pose proof (sin2_cos2 t) as T. unfold Rsqr in T.
      replace (/ (2 * / (sqrt 2 * (sqrt 2 - cos t)))) with (sqrt 2 * sqrt 2 / 2 - sqrt 2 * cos t/2) by (field; lra). rewrite Q. lra. }
    rewrite ES. clear Xs Ys Xm Ym Xb Yb Zs Zm' Zb' Gs Gm' Gb'.
    assert (HA : 0 < vA t). { unfold vA. apply Rinv_0_lt_compat. pose proof (cos_lt_r2 t). pose proof r2_pos. apply Rmult_lt_0_compat; lra. }
    pose proof kap_cube as K3. pose proof PI_RGT_0.
    generalize dependent (vA t). intros A ES HA. generalize (vk t), (kt t), (At t). intros k k' a'.
    match goal with |- ?L = 1 => replace L with (kap^3 * 2 * m * ts) end.
    rewrite K3. unfold ts. field. lra.
    field. lra.
Qed.
