(** Theorems for C19, C20, C63-C67: streaming covariance, online PCA. *)
From Verif Require Import Base PcaModel PcaSpec PcaProofs.

(** C19 *)
Theorem c19_streaming_equals_batch : forall Xs, (forall X, In X Xs -> X <> []) -> (2 <= length (concat Xs))%nat ->
  exists st, c_feed c_init Xs = Some st /\ c_obs st = length (concat Xs) /\
    (forall j, c_mean st j = mean_of (concat Xs) j) /\ (forall j k, c_get st j k = Some (cov_of (concat Xs) j k)).
Proof. exact c19_aux. Qed.
Print Assumptions c19_streaming_equals_batch.
Theorem c19_split_does_not_matter : forall Xs Ys st1 st2, concat Xs = concat Ys -> concat Xs <> [] ->
  c_feed c_init Xs = Some st1 -> c_feed c_init Ys = Some st2 ->
  c_obs st1 = c_obs st2 /\ (forall j, c_mean st1 j = c_mean st2 j) /\ (forall j k, c_agg st1 j k = c_agg st2 j k).
Proof. exact c19_split_aux. Qed.
Print Assumptions c19_split_does_not_matter.
Theorem c19_covariance_psd : forall L n v, (2 <= length L)%nat -> 0 <= sumn n (fun j => sumn n (fun k => v j * v k * cov_of L j k)).
Proof. exact cov_psd. Qed.
Print Assumptions c19_covariance_psd.
Theorem c19_correlation : forall Xs st j k, (forall X, In X Xs -> X <> []) -> (2 <= length (concat Xs))%nat -> c_feed c_init Xs = Some st ->
  0 < cov_of (concat Xs) j j -> 0 < cov_of (concat Xs) k k ->
  c_corr st j j = Some 1 /\ c_corr st j k = c_corr st k j /\
  exists r, c_corr st j k = Some r /\ r = cov_of (concat Xs) j k / (sqrt (cov_of (concat Xs) j j) * sqrt (cov_of (concat Xs) k k)) /\ -1 <= r <= 1.
Proof. exact c19_corr_aux. Qed.
Print Assumptions c19_correlation.
Example c19_example : exists st, c_feed c_init [[fun j => INR j]; [fun _ => 1; fun j => 2 * INR j]] = Some st /\ c_obs st = 3%nat /\
  c_get st 1 1 = Some (1/3) /\ 0 < cov_of [fun j => INR j; fun _ => 1; fun j => 2 * INR j] 1 1.
Proof.
  destruct (c19_streaming_equals_batch [[fun j => INR j]; [fun _ => 1; fun j => 2 * INR j]]) as [st [E [O [_ C]]]].
  - intros X [<-|[<-|[]]]; discriminate.
  - simpl; lia.
  - exists st. split; [exact E|]. split; [exact O|].
    assert (V : cov_of [fun j => INR j; fun _ => 1; fun j => 2 * INR j] 1 1 = 1/3) by (unfold cov_of, mean_of; simpl; field).
    split; [rewrite C; f_equal; exact V|]. rewrite V. lra.
Qed.

(** C63, refuted: one empty batch anywhere turns the whole estimate into NaN. *)
Theorem c63_empty_batch_refuted : forall Xs Ys, c_feed c_init (Xs ++ [] :: Ys) = None.
Proof. exact c63_aux. Qed.
Print Assumptions c63_empty_batch_refuted.

(** C20: n_components >= 2. *)
Theorem c20_oja_plus_counters : forall d n eta qr draw Q0 Xs, (2 <= n)%nat ->
  exists st, o_feed d n eta true qr draw (o_start Q0) Xs = Some st /\
  o_step st = length Xs /\ o_next st = Nat.min n (length Xs / (n / 2)) /\ (o_next st <= n)%nat /\ forall j, o_init st j = true <-> (j < o_next st)%nat.
Proof. exact c20_aux. Qed.
Print Assumptions c20_oja_plus_counters.
Theorem c20_oja_counter : forall d n eta qr draw Q0 Xs, exists st, o_feed d n eta false qr draw (o_start Q0) Xs = Some st /\ o_step st = length Xs.
Proof. exact c20_plain_aux. Qed.
Print Assumptions c20_oja_counter.
Example c20_example : exists st, o_feed 3 4 1 true (fun A => A) (fun _ _ => 0) (o_start (fun _ _ => 1)) [[]; []; []; []; []] = Some st /\ o_next st = 2%nat.
Proof. eexists. split; reflexivity. Qed.

(** C64, refuted: n_components = 1 with Oja++ fails on the first update, for every input. *)
Theorem c64_single_component_refuted : forall d eta qr draw Q0 X Xs, o_feed d 1 eta true qr draw (o_start Q0) (X :: Xs) = None.
Proof. exact c64_aux. Qed.
Print Assumptions c64_single_component_refuted.

(** C65 *)
Theorem c65_components_orthonormal : forall d n eta qr draw Q0 Xs X st, (forall A, orthonormal d n (qr A)) ->
  o_feed d n eta false qr draw (o_start Q0) (Xs ++ [X]) = Some st -> orthonormal d n (o_Q st).
Proof. exact oja_ortho_aux. Qed.
Print Assumptions c65_components_orthonormal.
Theorem c65_transform_inverts : forall d n Q z j, orthonormal d n Q -> (j < n)%nat -> o_transform d Q (o_inverse n Q z) j = z j.
Proof. exact oja_transform_aux. Qed.
Print Assumptions c65_transform_inverts.
Example c65_example : orthonormal 3 2 (fun i j => if Nat.eqb i j then 1 else 0).
Proof. intros a b Ha Hb. destruct a as [|[|a]], b as [|[|b]]; try lia; simpl; ring. Qed.

(** C66, refuted *)
Theorem c66_oja_plus_orthonormal_refuted : exists draw, forall d eta qr Q0 X, (forall A, orthonormal d 2 (qr A)) ->
  exists st, o_feed d 2 eta true qr draw (o_start Q0) [X] = Some st /\ ~ orthonormal d 2 (o_Q st).
Proof. exact oja_plus_not_ortho_aux. Qed.
Print Assumptions c66_oja_plus_orthonormal_refuted.
(** ... because the re-initialised column is the raw random draw. *)
Theorem c66_column_is_the_draw : forall d eta qr draw Q0 X,
  exists st, o_feed d 2 eta true qr draw (o_start Q0) [X] = Some st /\ forall i, o_Q st i 0%nat = draw 1%nat i.
Proof. exact oja_plus_col_aux. Qed.
Print Assumptions c66_column_is_the_draw.

(** C67 *)
Theorem c67_transform_inverts : forall d n inv C z a, is_inverse n (gram d C) (inv (gram d C)) -> (a < n)%nat ->
  k_transform d n inv C (k_inverse n C z) a = z a.
Proof. exact kras_roundtrip_aux. Qed.
Print Assumptions c67_transform_inverts.
Theorem c67_residual_orthogonal : forall d n inv C x a, is_inverse n (gram d C) (inv (gram d C)) -> (a < n)%nat ->
  sumn d (fun i => C i a * k_residual d n inv C x i) = 0.
Proof. exact kras_residual_aux. Qed.
Print Assumptions c67_residual_orthogonal.
Theorem c67_step_size : forall d n eta inv C x, 0 < eta -> 0 < k_alpha d n eta inv C x <= eta.
Proof. exact kras_alpha_aux. Qed.
Print Assumptions c67_step_size.
Example c67_example : is_inverse 1 (gram 2 (fun _ _ => 1)) (fun _ _ => 1/2).
Proof. intros a b Ha Hb. assert (a = 0)%nat by lia. assert (b = 0)%nat by lia. subst. unfold gram. simpl. split; field. Qed.
