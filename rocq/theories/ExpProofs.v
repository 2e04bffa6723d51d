From Coq Require Import String.
From Verif Require Import Base BaseFacts ExpModel ExpSpec.

Lemma upd_length {A} i (x : A) l : List.length (upd i x l) = List.length l.
Proof. revert i; induction l as [|y r IH]; intros [|i]; simpl; auto. Qed.
Lemma upd_same {A} i (x : A) l : (i < List.length l)%nat -> nth_error (upd i x l) i = Some x.
Proof. revert i; induction l as [|y r IH]; intros [|i] H; simpl in *; try lia; auto. apply IH; lia. Qed.
Lemma upd_other {A} i j (x : A) l : i <> j -> nth_error (upd i x l) j = nth_error l j.
Proof. revert i j; induction l as [|y r IH]; intros [|i] [|j] H; simpl; try congruence; auto. Qed.
Lemma put_length {A} idx : forall (vals l : list A), List.length (put idx vals l) = List.length l.
Proof. induction idx as [|i r IH]; intros [|v vr] l; simpl; auto. rewrite IH, upd_length. reflexivity. Qed.
Lemma put_miss {A} idx : forall (vals l : list A) j, ~ In j idx -> nth_error (put idx vals l) j = nth_error l j.
Proof.
  induction idx as [|i r IH]; intros [|v vr] l j H; simpl; auto. rewrite IH by (intros X; apply H; right; exact X). apply upd_other. intros ->. apply H; left; reflexivity.
Qed.
Lemma put_hit {A} idx : forall (vals l : list A) k j, List.length vals = List.length idx -> nth_error idx k = Some j -> (j < List.length l)%nat ->
  (forall k', (k < k')%nat -> nth_error idx k' <> Some j) -> nth_error (put idx vals l) j = nth_error vals k.
Proof.
  induction idx as [|i r IH]; intros [|v vr] l k j L E B U; simpl in *; try discriminate; try (destruct k; discriminate).
  destruct k as [|k]; simpl in *.
  - injection E as ->. rewrite put_miss. { apply upd_same; exact B. }
    intros X. apply In_nth_error in X. destruct X as [m X]. apply (U (S m)); [lia|exact X].
  - apply IH; [lia|exact E|rewrite upd_length; exact B|]. intros k' Hk. apply (U (S k')). lia.
Qed.
Lemma norm_idx_spec n z i : norm_idx n z = Some i <-> addresses n z i /\ (i < n)%nat.
Proof.
  unfold norm_idx, addresses. destruct (Z.leb_spec 0 z), (Z.ltb_spec z (Z.of_nat n)); cbn [andb].
  - split; [intros [= <-]; lia|]. intros [[->| ->] B]; f_equal; lia.
  - destruct (Z.leb_spec (- Z.of_nat n) z), (Z.ltb_spec z 0); cbn [andb]; (split; [intros X; try discriminate; lia|intros [[?|?] B]; lia]).
  - destruct (Z.leb_spec (- Z.of_nat n) z), (Z.ltb_spec z 0); cbn [andb]; try lia; (split; [intros X; try discriminate; injection X as <-; lia|intros [[?|?] B]; try lia; f_equal; lia]).
  - destruct (Z.leb_spec (- Z.of_nat n) z), (Z.ltb_spec z 0); cbn [andb]; (split; [intros X; try discriminate; injection X as <-; lia|intros [[?|?] B]; try lia; f_equal; lia]).
Qed.
Lemma norm_all_spec n is : forall ks, norm_all n is = Some ks -> List.length ks = List.length is /\ forall k z, nth_error is k = Some z -> exists i, nth_error ks k = Some i /\ norm_idx n z = Some i.
Proof.
  induction is as [|z r IH]; intros ks H; simpl in H.
  - injection H as <-. split; [reflexivity|]. intros [|k] z E; discriminate.
  - destruct (norm_idx n z) as [i|] eqn:E; [|discriminate]. destruct (norm_all n r) as [js|]; [|discriminate]. injection H as <-. destruct (IH js eq_refl) as [L S].
    split; [simpl; congruence|]. intros [|k] z' E'; simpl in *; [injection E' as <-; eauto|]. apply S; exact E'.
Qed.
Lemma norm_all_some n is : (exists ks, norm_all n is = Some ks) <-> forall z, In z is -> (- Z.of_nat n <= z < Z.of_nat n)%Z.
Proof.
  induction is as [|z r IH]; simpl.
  - split; [intros _ z []|intros _; eauto].
  - assert (N : (exists i, norm_idx n z = Some i) <-> (- Z.of_nat n <= z < Z.of_nat n)%Z).
    { unfold norm_idx. destruct (Z.leb_spec 0 z), (Z.ltb_spec z (Z.of_nat n)), (Z.leb_spec (- Z.of_nat n) z), (Z.ltb_spec z 0); cbn [andb]; split; intros X; try lia; try (eexists; reflexivity); destruct X; discriminate. }
    split.
    + intros [ks H] y [<-|Y].
      * apply N. destruct (norm_idx n z); [eauto|discriminate].
      * apply IH; [|exact Y]. destruct (norm_idx n z), (norm_all n r); try discriminate. eauto.
    + intros H. destruct (proj2 N (H z (or_introl eq_refl))) as [i ->]. destruct (proj2 IH (fun y Y => H y (or_intror Y))) as [ks ->]. eauto.
Qed.
(** last occurrence *)
Lemma last_occurrence (ks : list nat) j : In j ks -> exists k, nth_error ks k = Some j /\ forall k', (k < k')%nat -> nth_error ks k' <> Some j.
Proof.
  induction ks as [|x r IH]; [intros []|]. intros H. destruct (in_dec Nat.eq_dec j r) as [I|I].
  - destruct (IH I) as [k [E U]]. exists (S k). split; [exact E|]. intros [|k'] Hk; [lia|]. apply U; lia.
  - destruct H as [->|H]; [|contradiction]. exists 0%nat. split; [reflexivity|]. intros [|k'] Hk; [lia|]. simpl. intros X. apply I. eapply nth_error_In; exact X.
Qed.

Lemma set_at_value n is rows L L' h : List.length L = n -> (forall i v, nth_error L i = Some v -> value_at n h i v) ->
  List.length rows = List.length is -> forall ks, norm_all n is = Some ks -> put ks rows L = L' -> forall i v, nth_error L' i = Some v -> value_at n (SetAt is rows :: h) i v.
Proof.
  intros LL HV LR ks N <- i v E. destruct (norm_all_spec n is ks N) as [LK S].
  assert (B : (i < n)%nat) by (rewrite <- LL, <- (put_length ks rows L); apply nth_error_Some; congruence).
  destruct (in_dec Nat.eq_dec i ks) as [I|I].
  - destruct (last_occurrence ks i I) as [k [Ek U]].
    rewrite (put_hit ks rows L k i) in E; [|congruence|exact Ek|rewrite LL; exact B|exact U].
    destruct (nth_error is k) as [z|] eqn:Ez; [|apply nth_error_None in Ez; rewrite <- LK in Ez; assert (k < List.length ks)%nat by (apply nth_error_Some; congruence); lia].
    destruct (S k z Ez) as [i' [Ei Ni]]. rewrite Ek in Ei. injection Ei as <-.
    apply (va_hit n is rows h i k z v Ez); [apply norm_idx_spec in Ni; tauto| |exact E].
    intros k' z' Hk Ez' Ad. destruct (S k' z' Ez') as [i'' [Ei' Ni']]. apply (U k' Hk). rewrite Ei'. f_equal.
    assert (norm_idx n z' = Some i) by (apply norm_idx_spec; auto). congruence.
  - rewrite put_miss in E by exact I. apply va_miss; [|apply HV; exact E].
    intros z Hz Ad. apply In_nth_error in Hz. destruct Hz as [k Ez]. destruct (S k z Ez) as [i' [Ei Ni]].
    assert (norm_idx n z = Some i) by (apply norm_idx_spec; auto). apply I. eapply nth_error_In. rewrite Ei. f_equal. congruence.
Qed.
Lemma set_table_value n cur m o h cur' : (forall L, cur = Some L -> List.length L = n /\ forall i v, nth_error L i = Some v -> value_at n h i v) ->
  set_table n cur m (match o with SetAll r => r | SetAt _ r => r end) (match o with SetAll _ => None | SetAt is _ => Some is end) = Ok cur' ->
  exists L, cur' = Some L /\ List.length L = n /\ forall i v, nth_error L i = Some v -> value_at n (o :: h) i v.
Proof.
  intros HV H. unfold set_table in H. destruct o as [rows|is rows].
  - destruct (Nat.eqb_spec (List.length rows) n) as [E|]; [|discriminate]. injection H as <-. exists rows. split; [reflexivity|]. split; [exact E|]. intros i v X. apply va_all; exact X.
  - destruct (Nat.eqb_spec (List.length rows) (List.length is)) as [E|]; [|discriminate]. destruct cur as [L|]; [|discriminate].
    destruct (HV L eq_refl) as [LL V]. rewrite LL in H. destruct (norm_all n is) as [ks|] eqn:N; [|discriminate]. injection H as <-.
    exists (put ks rows L). split; [reflexivity|]. split; [rewrite put_length; exact LL|]. eapply set_at_value; eauto.
Qed.
Definition same_data (s s' : exp_state) : Prop := e_pats s' = e_pats s /\ e_spatial s' = e_spatial s /\ e_h s' = e_h s /\ e_w s' = e_w s /\ e_flat s' = e_flat s.
Lemma ori_step s o s' : ori_apply o s = Ok s' -> same_data s s' /\ e_coords s' = e_coords s /\
  set_table (e_n s) (e_ori s) TypeError (match o with SetAll r => r | SetAt _ r => r end) (match o with SetAll _ => None | SetAt is _ => Some is end) = Ok (e_ori s').
Proof.
  unfold ori_apply, set_orientations, width4. destruct o as [rows|is rows]; cbn [negb Nat.eqb];
  match goal with |- context [if negb ?b then _ else _] => destruct b; cbn [negb]; [|discriminate] end;
  match goal with |- context [match ?t with Ok _ => _ | Err _ => _ end] => destruct t as [t'|] eqn:E; [|discriminate] end; intros [= <-]; repeat split; exact E.
Qed.
Lemma coord_step s o s' : coord_apply o s = Ok s' -> same_data s s' /\ e_ori s' = e_ori s /\
  set_table (e_n s) (e_coords s) AttributeError (match o with SetAll r => r | SetAt _ r => r end) (match o with SetAll _ => None | SetAt is _ => Some is end) = Ok (e_coords s').
Proof.
  unfold coord_apply, set_spatial_coords. destruct o as [rows|is rows];
  match goal with |- context [match ?t with Ok _ => _ | Err _ => _ end] => destruct t as [t'|] eqn:E; [|discriminate] end; intros [= <-]; repeat split; exact E.
Qed.
Lemma same_data_refl s : same_data s s. Proof. repeat split. Qed.
Lemma same_data_trans a b c : same_data a b -> same_data b c -> same_data a c.
Proof. unfold same_data. intuition congruence. Qed.
Lemma ori_history s h s' : e_ori s = None -> replay ori_apply s h = Ok s' -> same_data s s' /\ e_coords s' = e_coords s /\
  (forall L, e_ori s' = Some L -> List.length L = e_n s /\ forall i v, nth_error L i = Some v -> value_at (e_n s) h i v) /\ (h <> [] -> e_ori s' <> None).
Proof.
  intros N. revert s'. induction h as [|o h IH]; intros s' H; simpl in H.
  - injection H as <-. split; [apply same_data_refl|]. split; [reflexivity|]. split; [intros L E; congruence|congruence].
  - destruct (replay ori_apply s h) as [s1|]; [|discriminate]. destruct (IH s1 eq_refl) as [D [C [V _]]].
    destruct (ori_step s1 o s' H) as [D' [C' T]]. assert (En : e_n s1 = e_n s) by (unfold e_n; f_equal; apply D). rewrite En in T.
    destruct (set_table_value (e_n s) (e_ori s1) TypeError o h (e_ori s') V T) as [L [E1 [E2 E3]]].
    split; [eapply same_data_trans; eauto|]. split; [congruence|]. split; [intros L' E'; assert (L' = L) by congruence; subst; auto|rewrite E1; discriminate].
Qed.
Lemma coord_history s h s' : e_coords s = None -> replay coord_apply s h = Ok s' -> same_data s s' /\ e_ori s' = e_ori s /\
  (forall L, e_coords s' = Some L -> List.length L = e_n s /\ forall i v, nth_error L i = Some v -> value_at (e_n s) h i v) /\ (h <> [] -> e_coords s' <> None).
Proof.
  intros N. revert s'. induction h as [|o h IH]; intros s' H; simpl in H.
  - injection H as <-. split; [apply same_data_refl|]. split; [reflexivity|]. split; [intros L E; congruence|congruence].
  - destruct (replay coord_apply s h) as [s1|]; [|discriminate]. destruct (IH s1 eq_refl) as [D [C [V _]]].
    destruct (coord_step s1 o s' H) as [D' [C' T]]. assert (En : e_n s1 = e_n s) by (unfold e_n; f_equal; apply D). rewrite En in T.
    destruct (set_table_value (e_n s) (e_coords s1) AttributeError o h (e_coords s') V T) as [L [E1 [E2 E3]]].
    split; [eapply same_data_trans; eauto|]. split; [congruence|]. split; [intros L' E'; assert (L' = L) by congruence; subst; auto|rewrite E1; discriminate].
Qed.
Lemma take_nth {A} (d : A) ks l k i : nth_error ks k = Some i -> (i < List.length l)%nat -> nth_error (take d ks l) k = nth_error l i.
Proof. intros E B. unfold take. rewrite (map_nth_error _ _ _ E). symmetry. apply nth_error_nth'; exact B. Qed.
Lemma get_table_spec cur m is out : get_table cur m (Some is) = Ok out -> exists L, cur = Some L /\ List.length out = List.length is /\
  forall k z, nth_error is k = Some z -> exists i, addresses (List.length L) z i /\ (i < List.length L)%nat /\ nth_error out k = nth_error L i.
Proof.
  unfold get_table. destruct cur as [L|]; [|discriminate]. destruct (norm_all (List.length L) is) as [ks|] eqn:N; [|discriminate]. intros [= <-].
  destruct (norm_all_spec _ _ _ N) as [LK S]. exists L. split; [reflexivity|]. split; [unfold take; rewrite map_length; exact LK|].
  intros k z E. destruct (S k z E) as [i [Ei Ni]]. apply norm_idx_spec in Ni. exists i. split; [tauto|]. split; [tauto|]. apply take_nth; tauto.
Qed.
Lemma chunks_length n k : forall l, List.length (chunks n k l) = n.
Proof. induction n; intros l; simpl; auto. Qed.
Lemma chunks_nth k : forall n i l j, (i < n)%nat -> (j < k)%nat -> nth j (nth i (chunks n k l) []) 0 = nth (i * k + j) l 0.
Proof.
  induction n as [|n IH]; intros i l j Hi Hj; [lia|]. destruct i as [|i]; simpl.
  - clear IH Hi. revert j Hj. revert l. induction k as [|k IHk]; intros l j Hj; [lia|]. destruct l as [|x r]; [destruct j; reflexivity|]. destruct j as [|j]; simpl; [reflexivity|]. apply IHk; lia.
  - rewrite IH by lia. rewrite <- Nat.add_assoc. revert l. generalize (i*k+j)%nat. clear. induction k as [|k IHk]; intros m l; simpl; [reflexivity|]. destruct l; [destruct m; reflexivity|apply IHk].
Qed.

(** sums *)
Lemma suml_map_sub l c : suml (map (fun x => x - c) l) = suml l - INR (List.length l) * c.
Proof. induction l as [|x r IH]; [simpl; ring|]. cbn [map suml fold_right List.length]. fold (suml (map (fun x => x - c) r)). fold (suml r). rewrite IH, S_INR. ring. Qed.
Lemma suml_map_scale l c : suml (map (fun x => x * c) l) = suml l * c.
Proof. induction l as [|x r IH]; [simpl; ring|]. cbn [map suml fold_right]. fold (suml (map (fun x => x * c) r)). fold (suml r). rewrite IH. ring. Qed.
Lemma suml_nonneg l : (forall x, In x l -> 0 <= x) -> 0 <= suml l.
Proof. induction l as [|x r IH]; intros H; [simpl; lra|]. cbn [suml fold_right]. fold (suml r). pose proof (H x (or_introl eq_refl)). assert (0 <= suml r) by (apply IH; intros y Hy; apply H; right; exact Hy). lra. Qed.
Lemma len_pos {A} (l : list A) : l <> [] -> 0 < INR (List.length l).
Proof. destruct l; [congruence|]. intros _. apply lt_0_INR. simpl; lia. Qed.
Lemma zeromean_sum p : p <> [] -> suml (zeromean p) = 0.
Proof. intros H. unfold zeromean. rewrite suml_map_sub. unfold meanl. pose proof (len_pos p H). field. lra. Qed.
Lemma zeromean_mean p : p <> [] -> meanl (zeromean p) = 0.
Proof. intros H. unfold meanl. rewrite zeromean_sum by exact H. unfold Rdiv; ring. Qed.
Lemma zeromean_length p : List.length (zeromean p) = List.length p. Proof. apply map_length. Qed.
Lemma fold_min_le x r : fold_right Rmin x r <= x /\ (forall y, In y r -> fold_right Rmin x r <= y).
Proof. induction r as [|z r [IH1 IH2]]; simpl; [split; [lra|tauto]|]. split; [eapply Rle_trans; [apply Rmin_r|exact IH1]|]. intros y [->|H]; [apply Rmin_l|eapply Rle_trans; [apply Rmin_r|auto]]. Qed.
Lemma fold_min_in x r : In (fold_right Rmin x r) (x :: r).
Proof. induction r as [|z r IH]; simpl in *; [auto|]. set (t := fold_right Rmin x r) in *. unfold Rmin; destruct (Rle_dec z t); tauto. Qed.
Lemma fold_max_ge x r : x <= fold_right Rmax x r /\ (forall y, In y r -> y <= fold_right Rmax x r).
Proof. induction r as [|z r [IH1 IH2]]; simpl; [split; [lra|tauto]|]. split; [eapply Rle_trans; [exact IH1|apply Rmax_r]|]. intros y [->|H]; [apply Rmax_l|eapply Rle_trans; [|apply Rmax_r]; auto]. Qed.
Lemma fold_max_in x r : In (fold_right Rmax x r) (x :: r).
Proof. induction r as [|z r IH]; simpl in *; [auto|]. set (t := fold_right Rmax x r) in *. unfold Rmax; destruct (Rle_dec z t); tauto. Qed.
Lemma minl_spec p : p <> [] -> In (minl p) p /\ forall x, In x p -> minl p <= x.
Proof. destruct p as [|x r]; [congruence|]. intros _. split; [apply fold_min_in|]. pose proof (fold_min_le x r) as [A B]. intros y [<-|H]; auto. Qed.
Lemma maxl_spec p : p <> [] -> In (maxl p) p /\ forall x, In x p -> x <= maxl p.
Proof. destruct p as [|x r]; [congruence|]. intros _. split; [apply fold_max_in|]. pose proof (fold_max_ge x r) as [A B]. intros y [<-|H]; auto. Qed.
Lemma minmax_div p : p <> [] -> 0 < 1/10000 + maxl p - minl p.
Proof. intros H. destruct (minl_spec p H) as [I _]. destruct (maxl_spec p H) as [_ M]. specialize (M _ I). lra. Qed.
Lemma minmax_range p : p <> [] -> forall y, In y (minmax p) -> 0 <= y < 1.
Proof.
  intros H y Hy. unfold minmax in Hy. apply in_map_iff in Hy. destruct Hy as [x [<- Hx]]. pose proof (minmax_div p H) as D. destruct (minl_spec p H) as [_ A]. destruct (maxl_spec p H) as [_ B]. specialize (A x Hx). specialize (B x Hx).
  split; [apply Rmult_le_pos; [lra|apply Rlt_le, Rinv_0_lt_compat; exact D]|]. apply Rmult_lt_reg_r with (1/10000 + maxl p - minl p); [exact D|]. unfold Rdiv at 1. rewrite Rmult_assoc, Rinv_l by lra. lra.
Qed.
Lemma minmax_zero p : p <> [] -> In 0 (minmax p).
Proof. intros H. unfold minmax. apply in_map_iff. exists (minl p). split; [unfold Rdiv; ring|apply minl_spec; exact H]. Qed.
Lemma minmax_order p : p <> [] -> forall i j, (i < List.length p)%nat -> (j < List.length p)%nat -> (nth i p 0 < nth j p 0 <-> nth i (minmax p) 0 < nth j (minmax p) 0).
Proof.
  intros H i j Hi Hj. pose proof (minmax_div p H) as D. unfold minmax. set (f := fun x => (x - minl p) / (1/10000 + maxl p - minl p)).
  assert (Q : forall m, (m < List.length p)%nat -> nth m (map f p) 0 = f (nth m p 0)) by (intros m Hm; rewrite (nth_indep (map f p) 0 (f 0)) by (rewrite map_length; exact Hm); apply map_nth). rewrite (Q i Hi), (Q j Hj).
  assert (ID : 0 < / (1/10000 + maxl p - minl p)) by (apply Rinv_0_lt_compat; exact D). unfold f. clear Q f. unfold Rdiv in *. split; intros X; [apply Rmult_lt_compat_r; lra|]. apply Rmult_lt_reg_r in X; lra.
Qed.
Lemma minmax_top p : p <> [] -> In ((maxl p - minl p) / (1/10000 + maxl p - minl p)) (minmax p).
Proof. intros H. unfold minmax. apply in_map_iff. exists (maxl p). split; [reflexivity|apply maxl_spec; exact H]. Qed.
Lemma varl_scale l k : varl (map (fun x => x * k) l) = varl l * (k * k).
Proof.
  unfold varl. rewrite map_length. assert (M : meanl (map (fun x => x * k) l) = meanl l * k) by (unfold meanl; rewrite suml_map_scale, map_length; unfold Rdiv; ring). rewrite M.
  rewrite map_map. replace (map (fun x => (x * k - meanl l * k)^2) l) with (map (fun y => y * (k*k)) (map (fun x => (x - meanl l)^2) l)) by (rewrite map_map; apply map_ext; intros; ring).
  rewrite suml_map_scale. unfold Rdiv; ring.
Qed.
Lemma varl_nonneg l : (2 <= List.length l)%nat -> 0 <= varl l.
Proof.
  intros H. unfold varl. apply Rmult_le_pos; [apply suml_nonneg; intros x Hx; apply in_map_iff in Hx; destruct Hx as [y [<- _]]; apply pow2_ge_0|].
  apply Rlt_le, Rinv_0_lt_compat. assert (2 <= INR (List.length l)) by (apply (le_INR 2); exact H). lra.
Qed.
Lemma standard_spec p q : standard p = Some q -> List.length q = List.length p /\ meanl q = 0 /\ varl q = 1.
Proof.
  unfold standard. destruct (Nat.leb_spec (List.length p) 1) as [|L]; [discriminate|]. destruct (Req_EM_T (varl (zeromean p)) 0) as [|N]; [discriminate|]. intros [= <-].
  assert (Hp : p <> []) by (destruct p; [simpl in L; lia|congruence]).
  assert (V : 0 <= varl (zeromean p)) by (apply varl_nonneg; rewrite zeromean_length; lia). set (sd := sqrt (varl (zeromean p))).
  assert (S2 : sd * sd = varl (zeromean p)) by (apply sqrt_sqrt; exact V). assert (sd <> 0) by (intros Z; apply N; rewrite <- S2, Z; ring).
  replace (map (fun x => x / sd) (zeromean p)) with (map (fun x => x * / sd) (zeromean p)) by reflexivity. split; [rewrite map_length; apply zeromean_length|]. split.
  - unfold meanl. rewrite suml_map_scale, zeromean_sum by exact Hp. unfold Rdiv; ring.
  - rewrite varl_scale, <- S2. field. assumption.
Qed.
(** background *)
Lemma map_idx_nth f p j : (j < List.length p)%nat -> nth j (map_idx f p) 0 = f j (nth j p 0).
Proof.
  intros H. unfold map_idx. set (g := fun j => f j (nth j p 0)). rewrite (nth_indep _ 0 (g 0%nat)) by (rewrite map_length, seq_length; exact H). rewrite map_nth, seq_nth by exact H. reflexivity.
Qed.
Lemma map_idx_length f p : List.length (map_idx f p) = List.length p. Proof. unfold map_idx. rewrite map_length, seq_length. reflexivity. Qed.
Lemma background_mean pats j : pats <> [] -> (forall p, In p pats -> (j < List.length p)%nat) ->
  pixel_mean (map (map_idx (fun j x => x - pixel_mean pats j)) pats) j = 0.
Proof.
  intros H L. unfold pixel_mean at 1. rewrite map_map.
  replace (map (fun p => nth j (map_idx (fun j x => x - pixel_mean pats j) p) 0) pats) with (map (fun x => x - pixel_mean pats j) (map (fun p => nth j p 0) pats)).
  - unfold meanl. rewrite suml_map_sub, map_length, map_length. unfold pixel_mean, meanl. rewrite map_length. pose proof (len_pos pats H). field. lra.
  - rewrite map_map. apply map_ext_in. intros p Hp. symmetry. apply (map_idx_nth (fun j x => x - pixel_mean pats j)). auto.
Qed.
(** average pooling *)
Lemma suml_app a b : suml (a ++ b) = suml a + suml b.
Proof. induction a as [|x r IH]; simpl; [ring|]. unfold suml in *. simpl. rewrite IH. ring. Qed.
Lemma flat_map_length_const {A B} (f : A -> list B) l n : (forall x, In x l -> List.length (f x) = n) -> List.length (flat_map f l) = (List.length l * n)%nat.
Proof. induction l as [|x r IH]; intros H; simpl; [reflexivity|]. rewrite app_length, (H x (or_introl eq_refl)), IH; [reflexivity|]. intros y Hy; apply H; right; exact Hy. Qed.
Lemma block_length w b p i j : List.length (block w b p i j) = (b * b)%nat.
Proof. unfold block. rewrite (flat_map_length_const _ _ b) by (intros; rewrite map_length, seq_length; reflexivity). rewrite seq_length. reflexivity. Qed.
Lemma avg_pool_length h w b p : List.length (avg_pool h w b p) = (h / b * (w / b))%nat.
Proof. unfold avg_pool. rewrite (flat_map_length_const _ _ (w/b)) by (intros; rewrite map_length, seq_length; reflexivity). rewrite seq_length. reflexivity. Qed.
Lemma flat_map_nth {A B} (f : A -> list B) (d : B) (da : A) n : forall l i j, (forall x, In x l -> List.length (f x) = n) -> (i < List.length l)%nat -> (j < n)%nat ->
  nth (i * n + j) (flat_map f l) d = nth j (f (nth i l da)) d.
Proof.
  induction l as [|x r IH]; intros i j H Hi Hj; [simpl in Hi; lia|]. simpl. destruct i as [|i].
  - simpl. apply app_nth1. rewrite H by (left; reflexivity). exact Hj.
  - rewrite app_nth2 by (rewrite (H x (or_introl eq_refl)); simpl; lia). rewrite (H x (or_introl eq_refl)). replace (S i * n + j - n)%nat with (i * n + j)%nat by (simpl; lia).
    apply IH; [intros y Hy; apply H; right; exact Hy|simpl in Hi; lia|exact Hj].
Qed.
Lemma nth_map_seq (f : nat -> R) n k : (k < n)%nat -> nth k (map f (seq 0 n)) 0 = f k.
Proof. intros H. rewrite (nth_indep _ 0 (f 0%nat)) by (rewrite map_length, seq_length; exact H). rewrite map_nth, seq_nth by exact H. reflexivity. Qed.
Lemma avg_pool_nth h w b p i j : (i < h / b)%nat -> (j < w / b)%nat -> nth (i * (w / b) + j) (avg_pool h w b p) 0 = meanl (block w b p i j).
Proof.
  intros Hi Hj. unfold avg_pool. rewrite (flat_map_nth _ 0 0%nat (w/b)); [|intros; rewrite map_length, seq_length; reflexivity|rewrite seq_length; exact Hi|exact Hj].
  rewrite seq_nth by exact Hi. apply nth_map_seq; exact Hj.
Qed.
Lemma block_in w b p i j x : In x (block w b p i j) <-> exists di dj, (di < b)%nat /\ (dj < b)%nat /\ x = nth ((i * b + di) * w + (j * b + dj)) p 0.
Proof.
  unfold block. rewrite in_flat_map. split.
  - intros [di [H1 H2]]. apply in_map_iff in H2. destruct H2 as [dj [<- H2]]. apply in_seq in H1, H2. exists di, dj. repeat split; lia.
  - intros [di [dj [H1 [H2 ->]]]]. exists di. split; [apply in_seq; lia|]. apply in_map_iff. exists dj. split; [reflexivity|apply in_seq; lia].
Qed.
Lemma suml_bounds l a b : (forall x, In x l -> a <= x <= b) -> INR (List.length l) * a <= suml l <= INR (List.length l) * b.
Proof.
  induction l as [|x r IH]; intros H; [simpl; lra|]. cbn [suml fold_right List.length]. fold (suml r). rewrite S_INR. pose proof (H x (or_introl eq_refl)). assert (INR (List.length r) * a <= suml r <= INR (List.length r) * b) by (apply IH; intros y Hy; apply H; right; exact Hy). lra.
Qed.
Lemma meanl_bounds l a b : l <> [] -> (forall x, In x l -> a <= x <= b) -> a <= meanl l <= b.
Proof.
  intros N H. pose proof (len_pos l N) as P. pose proof (suml_bounds l a b H) as [S1 S2]. unfold meanl, Rdiv. split.
  - apply Rmult_le_reg_r with (INR (List.length l)); [exact P|]. rewrite Rmult_assoc, Rinv_l by lra. lra.
  - apply Rmult_le_reg_r with (INR (List.length l)); [exact P|]. rewrite Rmult_assoc, Rinv_l by lra. lra.
Qed.
(** phases *)
Lemma indices_of_spec ph i k : In k (indices_of ph i) <-> (k < List.length ph)%nat /\ nth k ph 0%nat = i.
Proof. unfold indices_of. rewrite filter_In, in_seq, Nat.eqb_eq. intuition lia. Qed.
Lemma indices_of_nodup ph i : NoDup (indices_of ph i).
Proof. apply NoDup_filter, seq_NoDup. Qed.
Lemma nth_list_max ph k : (k < List.length ph)%nat -> (nth k ph 0%nat <= list_max ph)%nat.
Proof. intros H. assert (F : Forall (fun x => (x <= list_max ph)%nat) ph) by (apply list_max_le; lia). rewrite Forall_forall in F. apply F, nth_In; exact H. Qed.
(** dictionary *)
Lemma dict_set_one {V} k (v v' : V) : dict_set k v [(k, v')] = [(k, v)].
Proof. simpl. rewrite Nat.eqb_refl. reflexivity. Qed.
Lemma dict_get_set {V} k (v : V) d : dict_get k (dict_set k v d) = Some v.
Proof.
  unfold dict_get. induction d as [|[k' v'] r IH]; simpl; [rewrite Nat.eqb_refl; reflexivity|]. destruct (Nat.eqb_spec k k'); simpl; [rewrite Nat.eqb_refl; reflexivity|]. destruct (Nat.eqb_spec k k'); [contradiction|]. exact IH.
Qed.
Lemma dict_get_other {V} k k' (v : V) d : k <> k' -> dict_get k' (dict_set k v d) = dict_get k' d.
Proof.
  intros N. unfold dict_get. induction d as [|[a b] r IH]; simpl.
  - destruct (Nat.eqb_spec k' k); [congruence|reflexivity].
  - destruct (Nat.eqb_spec k a); simpl.
    + subst a. destruct (Nat.eqb_spec k' k); [congruence|reflexivity].
    + destruct (Nat.eqb_spec k' a); [reflexivity|exact IH].
Qed.

(** ---- assembled statements ---- *)
Lemma value_at_det n h i v v' : value_at n h i v -> value_at n h i v' -> v = v'.
Proof.
  intros A. revert v'. induction A as [rows h i v E|is rows h i k z v Ek Ad U E|is rows h i v U A IH]; intros v' B; inversion B; subst.
  - congruence.
  - match goal with Ek' : nth_error is ?k' = Some ?z', Ad' : addresses n ?z' i, U' : forall _ _, (?k' < _)%nat -> _ |- _ =>
      destruct (Nat.lt_trichotomy k k') as [L|[->|L]]; [exfalso; exact (U k' z' L Ek' Ad')|congruence|exfalso; exact (U' k z L Ek Ad)] end.
  - exfalso. match goal with M : forall z, In z is -> ~ _ |- _ => apply (M z); [eapply nth_error_In; exact Ek|exact Ad] end.
  - exfalso. match goal with Ek' : nth_error is _ = Some ?z', Ad' : addresses n ?z' i |- _ => apply (U z'); [eapply nth_error_In; exact Ek'|exact Ad'] end.
  - apply IH; assumption.
Qed.
Lemma history_get n (h : list wop) L is out : List.length L = n -> (forall i v, nth_error L i = Some v -> value_at n h i v) ->
  get_table (Some L) TypeError (Some is) = Ok out -> List.length out = List.length is /\
  forall k z, nth_error is k = Some z -> exists i v, addresses n z i /\ (i < n)%nat /\ nth_error out k = Some v /\ value_at n h i v.
Proof.
  intros LL V G. destruct (get_table_spec (Some L) TypeError is out G) as [L' [E [LO S]]]. injection E as <-. split; [exact LO|]. intros k z Ez. destruct (S k z Ez) as [i [A [B C]]]. rewrite LL in *.
  destruct (nth_error L i) as [v|] eqn:Ev; [|apply nth_error_None in Ev; lia]. exists i, v. auto.
Qed.
Lemma ori_get_history s h s' is out : e_ori s = None -> replay ori_apply s h = Ok s' -> get_orientations s' (Some is) = Ok (Some out) ->
  List.length out = List.length is /\
  forall k z, nth_error is k = Some z -> exists i v, addresses (e_n s) z i /\ (i < e_n s)%nat /\ nth_error out k = Some v /\ value_at (e_n s) h i v.
Proof.
  intros N R G. destruct (ori_history s h s' N R) as [_ [_ [V _]]]. unfold get_orientations in G.
  destruct (e_ori s') as [L|] eqn:E; [|simpl in G; discriminate]. destruct (V L eq_refl) as [LL V'].
  destruct (get_table (Some L) TypeError (Some is)) as [o|] eqn:T; [|discriminate]. injection G as <-. exact (history_get _ h L is o LL V' T).
Qed.
Lemma ori_get_all s h s' : e_ori s = None -> h <> [] -> replay ori_apply s h = Ok s' ->
  exists L, get_orientations s' None = Ok (Some L) /\ List.length L = e_n s /\ forall i v, nth_error L i = Some v -> value_at (e_n s) h i v.
Proof.
  intros N Hh R. destruct (ori_history s h s' N R) as [_ [_ [V W]]]. specialize (W Hh). unfold get_orientations. destruct (e_ori s') as [L|]; [|congruence]. destruct (V L eq_refl). exists L. auto.
Qed.
Lemma coord_get_history s h s' is out : e_coords s = None -> replay coord_apply s h = Ok s' -> get_spatial_coords s' (Some is) = Ok out ->
  List.length out = List.length is /\
  forall k z, nth_error is k = Some z -> exists i v, addresses (e_n s) z i /\ (i < e_n s)%nat /\ nth_error out k = Some v /\ value_at (e_n s) h i v.
Proof.
  intros N R G. destruct (coord_history s h s' N R) as [_ [_ [V _]]]. unfold get_spatial_coords in G.
  destruct (e_coords s') as [L|] eqn:E; [|simpl in G; discriminate]. destruct (V L eq_refl) as [LL V']. exact (history_get _ h L is out LL V' G).
Qed.
Lemma ori_frame s o s' : ori_apply o s = Ok s' -> e_phases s' = e_phases s /\ e_finv s' = e_finv s.
Proof.
  unfold ori_apply, set_orientations, width4. destruct o as [rows|is rows]; cbn [negb Nat.eqb];
  match goal with |- context [if negb ?b then _ else _] => destruct b; cbn [negb]; [|discriminate] end;
  match goal with |- context [match ?t with Ok _ => _ | Err _ => _ end] => destruct t as [t'|] eqn:E; [|discriminate] end; intros [= <-]; split; reflexivity.
Qed.
Lemma coord_frame s o s' : coord_apply o s = Ok s' -> e_phases s' = e_phases s /\ e_finv s' = e_finv s.
Proof.
  unfold coord_apply, set_spatial_coords. destruct o as [rows|is rows];
  match goal with |- context [match ?t with Ok _ => _ | Err _ => _ end] => destruct t as [t'|] eqn:E; [|discriminate] end; intros [= <-]; split; reflexivity.
Qed.
Lemma setters_frame s h s' :
  (replay ori_apply s h = Ok s' -> e_pats s' = e_pats s /\ e_spatial s' = e_spatial s /\ e_h s' = e_h s /\ e_w s' = e_w s /\ e_coords s' = e_coords s /\ e_phases s' = e_phases s /\ e_finv s' = e_finv s) /\
  (replay coord_apply s h = Ok s' -> e_pats s' = e_pats s /\ e_spatial s' = e_spatial s /\ e_h s' = e_h s /\ e_w s' = e_w s /\ e_ori s' = e_ori s /\ e_phases s' = e_phases s /\ e_finv s' = e_finv s).
Proof.
  split; revert s'; induction h as [|o h IH]; intros s' H; simpl in H; try (injection H as <-; repeat split).
  - destruct (replay ori_apply s h) as [s1|]; [|discriminate]. specialize (IH s1 eq_refl). destruct (ori_step s1 o s' H) as [D [C _]]. destruct (ori_frame s1 o s' H). unfold same_data in D. intuition congruence.
  - destruct (replay coord_apply s h) as [s1|]; [|discriminate]. specialize (IH s1 eq_refl). destruct (coord_step s1 o s' H) as [D [C _]]. destruct (coord_frame s1 o s' H). unfold same_data in D. intuition congruence.
Qed.
Lemma set_table_all n cur m vals : set_table n cur m vals None = Err ValueError <-> List.length vals <> n.
Proof. unfold set_table. destruct (Nat.eqb_spec (List.length vals) n); split; intros; try discriminate; try congruence; auto. Qed.
Lemma set_table_at n cur m vals is : cur <> None -> m <> ValueError -> (set_table n cur m vals (Some is) = Err ValueError <-> List.length vals <> List.length is).
Proof.
  intros C M. unfold set_table. destruct (Nat.eqb_spec (List.length vals) (List.length is)); [|split; auto].
  destruct cur as [L|]; [|congruence]. destruct (norm_all (List.length L) is); split; intros; try discriminate; congruence.
Qed.
Lemma shape_errors s shape vals :
  (set_orientations s shape vals None = Err ValueError <-> ~ (shape = [e_n s; 4%nat]) \/ List.length vals <> e_n s) /\
  (forall is, e_ori s <> None -> (set_orientations s shape vals (Some is) = Err ValueError <-> ~ (shape = [List.length is; 4%nat]) \/ List.length vals <> List.length is)) /\
  (set_spatial_coords s vals None = Err ValueError <-> List.length vals <> e_n s) /\
  (forall is, e_coords s <> None -> (set_spatial_coords s vals (Some is) = Err ValueError <-> List.length vals <> List.length is)).
Proof.
  assert (W : forall cur m idx (k : option (list row) -> exp_state), match set_table (e_n s) cur m vals idx with Err e => Err e | Ok t => Ok (k t) end = Err ValueError <-> set_table (e_n s) cur m vals idx = Err ValueError).
  { intros cur m idx k. destruct (set_table (e_n s) cur m vals idx) as [t|e]; [split; discriminate|]. split; intros [= ->]; reflexivity. }
  split; [|split; [|split]].
  - unfold set_orientations. destruct shape as [|m [|c [|]]]; try (split; [intros _; left; discriminate|reflexivity]).
    destruct (Nat.eqb_spec m (e_n s)) as [->|N]; cbn [negb]; [|split; [intros _; left; congruence|reflexivity]].
    destruct (Nat.eqb_spec c 4) as [->|N]; cbn [negb]; [|split; [intros _; left; congruence|reflexivity]].
    rewrite (W (e_ori s) TypeError None). rewrite set_table_all. split; [auto|]. intros [X|X]; [congruence|exact X].
  - intros is O. unfold set_orientations. destruct shape as [|m [|c [|]]]; try (split; [intros _; left; discriminate|reflexivity]).
    destruct (Nat.eqb_spec m (List.length is)) as [->|N]; cbn [negb]; [|split; [intros _; left; congruence|reflexivity]].
    destruct (Nat.eqb_spec c 4) as [->|N]; cbn [negb]; [|split; [intros _; left; congruence|reflexivity]].
    rewrite (W (e_ori s) TypeError (Some is)). rewrite set_table_at by (auto; discriminate). split; [auto|]. intros [X|X]; [congruence|exact X].
  - unfold set_spatial_coords. rewrite (W (e_coords s) AttributeError None). apply set_table_all.
  - intros is O. unfold set_spatial_coords. rewrite (W (e_coords s) AttributeError (Some is)). apply set_table_at; [exact O|discriminate].
Qed.
Lemma valid_calls s rows is L :
  (List.length rows = e_n s -> exists s', ori_apply (SetAll rows) s = Ok s') /\
  (e_ori s = Some L -> List.length L = e_n s -> List.length rows = List.length is -> (forall z, In z is -> - Z.of_nat (e_n s) <= z < Z.of_nat (e_n s))%Z ->
     exists s', ori_apply (SetAt is rows) s = Ok s').
Proof.
  split.
  - intros E. unfold ori_apply, set_orientations, width4, set_table. rewrite E, Nat.eqb_refl. cbn [negb Nat.eqb]. eexists; reflexivity.
  - intros E LL E2 B. unfold ori_apply, set_orientations, width4, set_table. rewrite E2, !Nat.eqb_refl, E, LL. cbn [negb Nat.eqb]. destruct (proj2 (norm_all_some (e_n s) is) B) as [ks ->]. eexists; reflexivity.
Qed.
Lemma init_ranks shape data : (exists s, exp_init shape data = Ok s) <-> (2 <= List.length shape <= 4)%nat.
Proof.
  destruct shape as [|a [|b [|c [|d [|e r]]]]]; simpl; split; intros H; try lia; try (destruct H; discriminate); eexists; reflexivity.
Qed.
Lemma init_layout lead h w data s : exp_init (lead ++ [h; w])%list data = Ok s ->
  e_n s = fold_right Nat.mul 1%nat lead /\ e_h s = h /\ e_w s = w /\ e_ori s = None /\ e_coords s = None /\ e_phases s = None /\
  forall i j, (i < e_n s)%nat -> (j < h * w)%nat -> nth j (nth i (e_pats s) []) 0 = nth (i * (h * w) + j) data 0.
Proof.
  destruct lead as [|a [|b [|c [|d r]]]]; cbn [app]; unfold exp_init; try discriminate; try (destruct r; discriminate); intros H; apply (f_equal (fun r => match r with Ok a => a | Err _ => s end)) in H; cbv beta iota in H; subst s; unfold e_n; cbn [e_pats e_h e_w e_ori e_coords e_phases]; rewrite ?chunks_length;
  (split; [cbn [fold_right]; rewrite ?Nat.mul_1_r; reflexivity|]); repeat (split; [reflexivity|]); intros i j Hi Hj; apply chunks_nth; assumption.
Qed.
Lemma get_patterns_unbinned s is b sh out : (b <= 1)%Z -> get_patterns s is b = Ok (sh, out) ->
  List.length out = List.length is /\ hd 0%nat sh = List.length is /\
  forall k z, nth_error is k = Some z -> exists i, addresses (e_n s) z i /\ (i < e_n s)%nat /\ nth_error out k = nth_error (e_pats s) i.
Proof.
  intros B. unfold get_patterns. destruct (norm_all (e_n s) is) as [ks|] eqn:N; [|discriminate]. destruct (Z.ltb_spec 1 b); [lia|]. intros [= <- <-].
  destruct (norm_all_spec _ _ _ N) as [LK S]. split; [unfold take; rewrite map_length; exact LK|]. split; [destruct (e_flat s); exact LK|].
  intros k z E. destruct (S k z E) as [i [Ei Ni]]. apply norm_idx_spec in Ni. exists i. split; [tauto|]. split; [tauto|]. apply take_nth; tauto.
Qed.
Lemma minmax_state s s' p : normalize_per_pattern s "minmax" = Normalised s' -> In p (e_pats s') -> (forall q, In q (e_pats s) -> q <> []) ->
  (forall y, In y p -> 0 <= y < 1) /\ In 0 p.
Proof.
  unfold normalize_per_pattern. cbn. intros [= <-]. cbn. intros H Q. apply in_map_iff in H. destruct H as [q [<- Hq]]. split; [apply minmax_range|apply minmax_zero]; auto.
Qed.
Lemma nth_map_in {A B} (f : A -> B) (l : list A) n d d' : (n < List.length l)%nat -> nth n (map f l) d' = f (nth n l d).
Proof. intros H. rewrite (nth_indep (map f l) d' (f d)) by (rewrite map_length; exact H). apply map_nth. Qed.
Lemma minmax_state_order s s' n i j : normalize_per_pattern s "minmax" = Normalised s' -> (n < e_n s)%nat ->
  let p := nth n (e_pats s) [] in let p' := nth n (e_pats s') [] in
  List.length p' = List.length p /\ ((i < List.length p)%nat -> (j < List.length p)%nat -> (nth i p 0 < nth j p 0 <-> nth i p' 0 < nth j p' 0)).
Proof.
  unfold normalize_per_pattern. cbn. intros [= <-] Hn. cbn. rewrite (nth_map_in minmax (e_pats s) n [] []) by exact Hn. set (p := nth n (e_pats s) []). clearbody p. split; [apply map_length|].
  intros Hi Hj. apply minmax_order; try assumption. destruct p; [simpl in Hi; lia|discriminate].
Qed.
Lemma zeromean_state s s' p : normalize_per_pattern s "zeromean" = Normalised s' -> In p (e_pats s') -> (forall q, In q (e_pats s) -> q <> []) -> sum_rows p = 0.
Proof.
  unfold normalize_per_pattern. cbn. intros [= <-]. cbn. intros H Q. apply in_map_iff in H. destruct H as [q [<- Hq]]. apply zeromean_sum; auto.
Qed.
Lemma traverse_in {A B} (f : A -> option B) l l' y : traverse f l = Some l' -> In y l' -> exists x, In x l /\ f x = Some y.
Proof.
  revert l'. induction l as [|x r IH]; intros l' H I; simpl in H; [injection H as <-; destruct I|].
  destruct (f x) as [z|] eqn:E; [|discriminate]. destruct (traverse f r) as [zs|]; [|discriminate]. injection H as <-. destruct I as [<-|I]; [exists x; simpl; auto|]. destruct (IH zs eq_refl I) as [x' [? ?]]. exists x'; simpl; auto.
Qed.
Lemma traverse_map_length {A} (f : list A -> option (list A)) l l' : (forall x y, f x = Some y -> List.length y = List.length x) -> traverse f l = Some l' -> map (@List.length A) l' = map (@List.length A) l.
Proof.
  intros F. revert l'. induction l as [|x r IH]; intros l' H; simpl in H; [injection H as <-; reflexivity|].
  destruct (f x) as [z|] eqn:E; [|discriminate]. destruct (traverse f r) as [zs|]; [|discriminate]. injection H as <-. simpl. rewrite (F x z E), (IH zs eq_refl). reflexivity.
Qed.
Lemma standard_state s s' p : normalize_per_pattern s "standard" = Normalised s' -> In p (e_pats s') ->
  mean_rows p = 0 /\ sum_rows (map (fun x => (x - mean_rows p)^2) p) = INR (List.length p) - 1.
Proof.
  unfold normalize_per_pattern. cbn. destruct (traverse standard (e_pats s)) as [l|] eqn:T; [|discriminate]. intros [= <-] H. cbn in H. destruct (traverse_in _ _ _ _ T H) as [x [_ E]].
  pose proof E as E'. destruct (standard_spec x p E) as [L [M V]]. split; [exact M|]. unfold varl in V. change mean_rows with meanl. change sum_rows with suml.
  set (X := suml _) in *. set (Y := INR (List.length p) - 1) in *. assert (N : Y <> 0). { intros Z. rewrite Z in V. unfold Rdiv in V. rewrite Rinv_0, Rmult_0_r in V. lra. }
  apply (Rmult_eq_compat_r Y) in V. unfold Rdiv in V. rewrite Rmult_assoc, Rinv_l in V by exact N. lra.
Qed.
Lemma norm_shape s s' ty : normalize_per_pattern s ty = Normalised s' -> e_n s' = e_n s /\ e_h s' = e_h s /\ e_w s' = e_w s /\ e_flat s' = false /\
  map (@List.length R) (e_pats s') = map (@List.length R) (e_pats s).
Proof.
  unfold normalize_per_pattern. destruct (string_dec ty "minmax"); [|destruct (string_dec ty "zeromean"); [|destruct (string_dec ty "standard"); [|discriminate]]].
  - intros [= <-]. unfold e_n. cbn. rewrite map_length, map_map. repeat split. apply map_ext. intros; apply map_length.
  - intros [= <-]. unfold e_n. cbn. rewrite map_length, map_map. repeat split. apply map_ext. intros; apply map_length.
  - destruct (traverse standard (e_pats s)) as [l|] eqn:T; [|discriminate]. intros [= <-]. assert (Q : map (@List.length R) l = map (@List.length R) (e_pats s)) by (eapply traverse_map_length; [|exact T]; intros x y E; apply (standard_spec x y E)).
    unfold e_n. cbn. split; [|auto]. apply (f_equal (@List.length nat)) in Q. rewrite !map_length in Q. exact Q.
Qed.
Lemma background_state s j : e_pats s <> [] -> (forall p, In p (e_pats s) -> (j < List.length p)%nat) ->
  sum_rows (map (fun p => nth j p 0) (e_pats (subtract_overall_background s))) = 0.
Proof.
  intros H L. pose proof (background_mean (e_pats s) j H L) as M. unfold subtract_overall_background. cbn [e_pats with_pats]. change sum_rows with suml. unfold pixel_mean at 1 in M. unfold meanl at 1 in M. rewrite !map_length in M.
  pose proof (len_pos (e_pats s) H) as P. apply Rmult_integral in M. destruct M as [M|M]; [exact M|]. exfalso. apply Rinv_0_lt_compat in P. lra.
Qed.
Lemma get_patterns_binned s is b sh out : (1 < b)%Z -> get_patterns s is b = Ok (sh, out) -> let n := Z.to_nat b in
  sh = [List.length is; (e_h s / n)%nat; (e_w s / n)%nat] /\ List.length out = List.length is /\
  forall k z, nth_error is k = Some z -> exists i p o, addresses (e_n s) z i /\ nth_error (e_pats s) i = Some p /\ nth_error out k = Some o /\
    List.length o = (e_h s / n * (e_w s / n))%nat /\
    forall r c, (r < e_h s / n)%nat -> (c < e_w s / n)%nat -> exists bl, nth (r * (e_w s / n) + c) o 0 = mean_rows bl /\ List.length bl = (n * n)%nat /\
      (forall x, In x bl <-> exists di dj, (di < n)%nat /\ (dj < n)%nat /\ x = nth ((r * n + di) * e_w s + (c * n + dj)) p 0) /\
      forall lo hi, (forall x, In x bl -> lo <= x <= hi) -> lo <= mean_rows bl <= hi.
Proof.
  intros B H n. unfold get_patterns in H. destruct (norm_all (e_n s) is) as [ks|] eqn:N; [|discriminate]. destruct (Z.ltb_spec 1 b); [|lia]. destruct (e_flat s); [discriminate|]. fold n in H.
  destruct (Nat.ltb (e_h s) n || Nat.ltb (e_w s) n)%bool; [discriminate|]. destruct (norm_all_spec _ _ _ N) as [LK S]. injection H as <- <-.
  split; [rewrite LK; reflexivity|]. split; [unfold take; rewrite !map_length; exact LK|]. intros k z E. destruct (S k z E) as [i [Ei Ni]]. apply norm_idx_spec in Ni. destruct Ni as [A Bi].
  pose proof (take_nth [] ks (e_pats s) k i Ei Bi) as T. destruct (nth_error (e_pats s) i) as [p|] eqn:Ep; [|apply nth_error_None in Ep; unfold e_n in Bi; lia].
  exists i, p, (avg_pool (e_h s) (e_w s) n p). split; [exact A|]. split; [exact Ep|]. split; [apply map_nth_error; exact (eq_trans T Ep)|]. split; [apply avg_pool_length|].
  intros r c Hr Hc. exists (block (e_w s) n p r c). split; [apply avg_pool_nth; assumption|]. split; [apply block_length|]. split; [intros x; apply block_in|].
  intros lo hi Q. apply meanl_bounds; [|exact Q]. intros Z. pose proof (block_length (e_w s) n p r c) as BL. rewrite Z in BL. simpl in BL. assert (n <> 0)%nat by (unfold n; lia). destruct n; [congruence|simpl in BL; lia].
Qed.
Lemma standard_ex : exists p, standard [1; 2; 3; 4] = Some p.
Proof.
  unfold standard. cbn [List.length Nat.leb]. destruct (Req_EM_T _ 0) as [Z|]; [|eexists; reflexivity]. exfalso. revert Z. unfold varl, zeromean, meanl, suml. simpl. lra.
Qed.
Lemma combine_single s q m hib : e_raw s = Some [(0%nat, (q, m))] -> exists s', combine_indexing_results s hib = Ok s' /\
  e_ori s' = Some (map (fun r => nth 0 r []) q) /\ e_best s' = Some (map (fun r => nth 0 r 0) m) /\
  (exists ph, e_phases s' = Some ph /\ List.length ph = e_n s /\ forall i, (i < e_n s)%nat -> nth i ph 1%nat = 0%nat) /\ e_pats s' = e_pats s.
Proof.
  intros H. unfold combine_indexing_results. rewrite H. cbn. eexists. split; [reflexivity|]. cbn. split; [reflexivity|]. split; [reflexivity|]. split; [|reflexivity].
  eexists. split; [reflexivity|]. split; [apply repeat_length|]. intros i Hi. rewrite (nth_indep _ 1%nat 0%nat) by (rewrite repeat_length; exact Hi). apply nth_repeat.
Qed.
Lemma combine_overwrite s q m q' m' hib : e_raw s = None -> 
  combine_indexing_results (set_raw_indexing_results (set_raw_indexing_results s q m 0) q' m' 0) hib = combine_indexing_results (set_raw_indexing_results s q' m' 0) hib.
Proof. intros H. unfold combine_indexing_results, set_raw_indexing_results. rewrite H. reflexivity. Qed.
Lemma combine_multi s q m p1 q' m' p2 hib : e_raw s = None -> p1 <> p2 ->
  combine_indexing_results (set_raw_indexing_results (set_raw_indexing_results s q m p1) q' m' p2) hib = Err TypeError.
Proof. intros H N. unfold combine_indexing_results, set_raw_indexing_results. rewrite H. cbn [e_raw dict_set]. destruct (Nat.eqb_spec p2 p1); [congruence|]. reflexivity. Qed.
Lemma combine_key s q m p hib : e_raw s = None -> (0 < p < 256)%nat -> combine_indexing_results (set_raw_indexing_results s q m p) hib = Err KeyError.
Proof.
  intros H [P Q]. unfold combine_indexing_results, set_raw_indexing_results. rewrite H. cbn [e_raw]. change (Nat.ltb 1 (List.length [(p, (q, m))])) with false. cbv iota.
  destruct (Nat.ltb_spec 255 p); [lia|]. unfold dict_get. cbn [find fst]. destruct (Nat.eqb_spec 0 p); [lia|]. reflexivity.
Qed.
Lemma phases_nth s ph out : e_phases s = Some ph -> get_indices_per_phase s = Ok out -> List.length out = S (list_max ph) /\
  forall i, (i < List.length out)%nat -> nth i out ([], []) = (squeezed (List.length (indices_of ph i)), indices_of ph i).
Proof.
  intros E. unfold get_indices_per_phase. rewrite E. destruct ph as [|a r]; [discriminate|]. set (ph := a :: r). intros H. apply (f_equal (fun x => match x with Ok y => y | Err _ => out end)) in H. cbv beta iota in H. subst out.
  split; [rewrite map_length, seq_length; reflexivity|]. intros i Hi. rewrite map_length, seq_length in Hi. rewrite (nth_map_in _ (seq 0 (S (list_max ph))) i 0%nat) by (rewrite seq_length; exact Hi). rewrite seq_nth by exact Hi. reflexivity.
Qed.
Lemma phases_partition s ph out : e_phases s = Some ph -> get_indices_per_phase s = Ok out ->
  List.length out = S (list_max ph) /\
  (forall k, (k < List.length ph)%nat -> exists i, (i < List.length out)%nat /\ In k (snd (nth i out ([], []))) /\ forall i', In k (snd (nth i' out ([], []))) -> i' = i) /\
  (forall i k, In k (snd (nth i out ([], []))) -> (k < List.length ph)%nat /\ nth k ph 0%nat = i) /\ (forall i, NoDup (snd (nth i out ([], [])))).
Proof.
  intros E G. destruct (phases_nth s ph out E G) as [L N]. split; [exact L|].
  assert (M : forall i k, In k (snd (nth i out ([], []))) -> (k < List.length ph)%nat /\ nth k ph 0%nat = i).
  { intros i k H. destruct (Nat.lt_ge_cases i (List.length out)) as [B|B]; [|rewrite nth_overflow in H by exact B; destruct H]. rewrite (N i B) in H. apply indices_of_spec in H. exact H. }
  split; [|split; [exact M|]].
  - intros k Hk. exists (nth k ph 0%nat). assert (B : (nth k ph 0 < List.length out)%nat) by (rewrite L; pose proof (nth_list_max ph k Hk); lia). split; [exact B|].
    split; [rewrite (N _ B); apply indices_of_spec; auto|]. intros i' H. destruct (M i' k H). congruence.
  - intros i. destruct (Nat.lt_ge_cases i (List.length out)) as [B|B]; [rewrite (N i B); apply indices_of_nodup|rewrite nth_overflow by exact B; constructor].
Qed.
Lemma init_fresh shape data s : exp_init shape data = Ok s -> e_ori s = None /\ e_coords s = None.
Proof. destruct shape as [|a [|b [|c [|d [|e r]]]]]; simpl; try discriminate; intros [= <-]; split; reflexivity. Qed.
Lemma unset_coords shape data s idx : exp_init shape data = Ok s -> get_spatial_coords s idx = Err AttributeError /\ get_spatial_coords s idx <> Err ValueError.
Proof. intros H. destruct (init_fresh _ _ _ H) as [_ C]. unfold get_spatial_coords, get_table. rewrite C. split; [reflexivity|discriminate]. Qed.
Lemma indexed_first shape data s is rows : exp_init shape data = Ok s -> List.length rows = List.length is -> set_spatial_coords s rows (Some is) = Err AttributeError /\
  set_orientations s (width4 rows) rows (Some is) = Err TypeError.
Proof.
  intros H L. destruct (init_fresh _ _ _ H) as [O C]. unfold set_spatial_coords, set_orientations, set_table, width4. rewrite L, O, C, !Nat.eqb_refl. split; reflexivity.
Qed.
Lemma norm_failure s ty : ty <> "minmax"%string -> ty <> "zeromean"%string -> ty <> "standard"%string ->
  exists s', normalize_per_pattern s ty = NormError ValueError s' /\ e_flat s' = true /\
    forall is b, (1 < b)%Z -> (forall z, In z is -> - Z.of_nat (e_n s) <= z < Z.of_nat (e_n s))%Z -> get_patterns s' is b = Err RuntimeError.
Proof.
  intros A B C. unfold normalize_per_pattern. destruct (string_dec ty "minmax"); [contradiction|]. destruct (string_dec ty "zeromean"); [contradiction|]. destruct (string_dec ty "standard"); [contradiction|].
  eexists. split; [reflexivity|]. split; [reflexivity|]. intros is b Hb R. unfold get_patterns. change (e_n (with_pats s (e_pats s) true)) with (e_n s). destruct (proj2 (norm_all_some (e_n s) is) R) as [ks ->].
  destruct (Z.ltb_spec 1 b); [|lia]. reflexivity.
Qed.
Lemma alias_modified : exists t, caller (al_step (al_init t) ZeroMean) <> t /\ caller (al_step (al_init t) MinMax) <> t /\ caller (al_step (al_init t) Background) <> t.
Proof.
  exists [[1; 3]; [5; 5]]. repeat split; cbn; unfold map_idx, zeromean, minmax, pixel_mean, meanl, suml; cbn; intros H;
  apply (f_equal (fun l => nth 0 (nth 0 l []) 0)) in H; cbn in H; try lra.
  rewrite Rmin_right in H by lra. unfold Rdiv in H. rewrite Rminus_diag_eq, Rmult_0_l in H by reflexivity. lra.
Qed.
Lemma alias_same ops t : (forall o r, In o ops -> o <> Clahe r) -> own (fold_left al_step ops (al_init t)) = None.
Proof.
  assert (G : forall a, own a = None -> (forall o r, In o ops -> o <> Clahe r) -> own (fold_left al_step ops a) = None).
  { induction ops as [|o r IH]; intros a E H; simpl; [exact E|]. apply IH; [|intros o' r' I; apply H; right; exact I].
    destruct o; simpl; unfold al_write; rewrite ?E; try reflexivity; try exact E. exfalso. exact (H (Clahe result) result (or_introl eq_refl) eq_refl). }
  apply G. reflexivity.
Qed.
Lemma alias_safe ops a r : caller (fold_left al_step ops (al_step a (Clahe r))) = caller a.
Proof.
  assert (G : forall b, own b <> None -> caller (fold_left al_step ops b) = caller b).
  { induction ops as [|o os IH]; intros b E; simpl; [reflexivity|]. rewrite IH; destruct o; simpl; unfold al_write; destruct (own b); simpl; congruence. }
  rewrite G; [reflexivity|discriminate].
Qed.
Lemma rank_lost : exists s out i, get_indices_per_phase s = Ok out /\ snd (nth i out ([], [])) <> [] /\ fst (nth i out ([], [])) = [].
Proof.
  exists (mkE [3%nat] 1 1 [[1]; [2]; [3]] false (Some [0; 1; 0]%nat) None None None None None), [([2%nat], [0; 2]%nat); ([], [1%nat])], 1%nat. split; [reflexivity|]. split; [discriminate|reflexivity].
Qed.
Lemma rank_kept s ph out i : e_phases s = Some ph -> get_indices_per_phase s = Ok out -> (i < List.length out)%nat ->
  List.length (snd (nth i out ([], []))) <> 1%nat -> fst (nth i out ([], [])) = [List.length (snd (nth i out ([], [])))].
Proof.
  intros E G B. destruct (phases_nth s ph out E G) as [_ N]. rewrite (N i B). cbn [fst snd]. intros H. unfold squeezed. destruct (List.length (indices_of ph i)) as [|[|]]; congruence.
Qed.
Lemma finv_stored s shape vals s' : set_inv_f_matrix s (Some (shape, vals)) = Ok s' -> get_inv_f_matrix s' None = Ok vals.
Proof.
  unfold set_inv_f_matrix. destruct shape as [|m sh]; [discriminate|]. destruct (negb (m =? e_n s)%nat); [discriminate|]. destruct (rev (m :: sh)) as [|c [|b' r]]; try discriminate.
  destruct ((negb (b' =? 3) || negb (c =? 3)) && negb (c =? 9))%nat%bool; [discriminate|]. destruct (Nat.eqb _ (9 * e_n s)); [|discriminate]. intros [= <-]. reflexivity.
Qed.
Lemma finv_default s s' : set_inv_f_matrix s None = Ok s' -> exists L, get_inv_f_matrix s' None = Ok L /\ List.length L = e_n s /\ forall v, In v L -> v = [1; 0; 0; 0; 1; 0; 0; 0; 1].
Proof. cbn. intros [= <-]. eexists. split; [reflexivity|]. split; [apply repeat_length|]. intros v H. apply repeat_spec in H. exact H. Qed.
Lemma finv_broadcast s vals : e_n s <> 1%nat -> set_inv_f_matrix s (Some ([1; 3; 3]%nat, vals)) = Err ValueError.
Proof. intros H. unfold set_inv_f_matrix. destruct (Nat.eqb_spec 1 (e_n s)); [congruence|]. reflexivity. Qed.
