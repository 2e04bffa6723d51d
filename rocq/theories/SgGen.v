(** The closure is the group generated by the generator string. *)
From Coq Require Import Reals ZArith List String Ascii Bool Lia Lra.
From Verif Require Import SgModel SgSpec SgCheck SgProofs.
Import ListNotations.
Open Scope Z_scope.

Lemma rem24 k t : (24 | k) -> (24 | Z.rem (k + t) 24 - t).
Proof. intros [q ->]. exists (q - Z.quot (q * 24 + t) 24). pose proof (Z.quot_rem (q * 24 + t) 24 ltac:(lia)). lia. Qed.
Lemma leq_refl p : lattice_eq p p.
Proof. destruct p as [[x y] z]. repeat split; exists 0; ring. Qed.
Lemma leq_sym p q : lattice_eq p q -> lattice_eq q p.
Proof. destruct p as [[x y] z], q as [[u v] w]. unfold lattice_eq. intros [[a A] [[b B] [c C]]]. repeat split; [exists (- a)|exists (- b)|exists (- c)]; lia. Qed.
Lemma leq_trans p q r : lattice_eq p q -> lattice_eq q r -> lattice_eq p r.
Proof. destruct p as [[x y] z], q as [[u v] w], r as [[i j] k]. unfold lattice_eq. intros [[a A] [[b B] [c C]]] [[d D] [[e E] [f F]]]. repeat split; [exists (a + d)|exists (b + e)|exists (c + f)]; lia. Qed.
Lemma act_leq o p q : lattice_eq p q -> lattice_eq (act o p) (act o q).
Proof.
  destruct p as [[x y] z], q as [[u v] w]. unfold lattice_eq, act. intros [[a A] [[b B] [c C]]]. assert (x = u + a * 24) by lia. assert (y = v + b * 24) by lia. assert (z = w + c * 24) by lia. subst.
  repeat split; [exists (r11 o * a + r12 o * b + r13 o * c)|exists (r21 o * a + r22 o * b + r23 o * c)|exists (r31 o * a + r32 o * b + r33 o * c)]; ring.
Qed.
Lemma mul_composes a b : hom b = 1 -> composes a b (op_mul a b).
Proof.
  intros H [[x y] z]. unfold act, lattice_eq, op_mul, tmod. cbn [r11 r12 r13 r21 r22 r23 r31 r32 r33 t1 t2 t3]. rewrite H, !Z.mul_1_r.
  split; [|split]; (eapply shift_div; [apply (rem24 24000); exists 1000; reflexivity|]); [instantiate (1 := r11 a * t1 b + r12 a * t2 b + r13 a * t3 b + t1 a)|instantiate (1 := r21 a * t1 b + r22 a * t2 b + r23 a * t3 b + t2 a)|instantiate (1 := r31 a * t1 b + r32 a * t2 b + r33 a * t3 b + t3 a)]; ring.
Qed.
Lemma final_same o : same_operator (final_op o) o.
Proof.
  intros [[x y] z]. unfold act, lattice_eq, final_op. cbn [r11 r12 r13 r21 r22 r23 r31 r32 r33 t1 t2 t3].
  split; [|split]; (eapply shift_div; [apply (rem24 2400); exists 100; reflexivity|]); [instantiate (1 := t1 o)|instantiate (1 := t2 o)|instantiate (1 := t3 o)]; ring.
Qed.
Lemma unique_in l : forall kept o, In o (unique_rows kept l) -> In o kept \/ In o l.
Proof.
  induction l as [|a l IH]; intros kept o; cbn [unique_rows]; [rewrite <- in_rev; auto|]. destruct (existsb (same_all a) kept); intros H; apply IH in H; cbn [In] in *; tauto.
Qed.
Definition good (base : list sop) (gens : list sop) : Prop := Forall (fun o => hom o = 1 /\ generated base o) gens.
Lemma step_good base gens g' : good base gens -> close_step gens = Some g' -> good base g' /\ incl gens g'.
Proof.
  intros G. unfold close_step. set (news := filter _ _). assert (N : good base news).
  { apply Forall_forall. intros o I. unfold news in I. apply filter_In in I as [I _]. apply unique_in in I as [[]|I]. apply in_flat_map in I as [a [A I]]. apply in_map_iff in I as [b [<- B]]. unfold good in G. rewrite Forall_forall in G. destruct (G a A) as [Ha Ga], (G b B) as [Hb Gb].
    split; [unfold op_mul; cbn [hom]; rewrite Ha, Hb; reflexivity|]. eapply gen_mul; [exact Ga|exact Gb|apply mul_composes; exact Hb]. }
  destruct news as [|x l]; [discriminate|]. intros [= <-]. split; [apply Forall_app; split; assumption|apply incl_appl, incl_refl].
Qed.
Lemma close_good base : forall d gens, good base gens -> good base (close d gens) /\ incl gens (close d gens).
Proof.
  induction d as [|d IH]; intros gens G; cbn [close]; [split; [exact G|apply incl_refl]|]. destruct (close_step gens) as [g'|] eqn:E; [|split; [exact G|apply incl_refl]].
  destruct (step_good base gens g' G E) as [G' I]. destruct (IH g' G') as [G2 I2]. split; [exact G2|eapply incl_tran; eassumption].
Qed.
Lemma parse_hom s p g : parse_gen s p = SgOk g -> hom g = 1.
Proof.
  unfold parse_gen. destruct (get p s) as [c|]; [|discriminate]. destruct (get (p + 1) s) as [x|]; [|discriminate]. destruct (get (p + 2) s) as [y|]; [|discriminate]. destruct (get (p + 3) s) as [z|]; [|discriminate].
  destruct (rot_matrix c) as [[|a [|b [|d [|e [|f [|g0 [|h [|i [|j [|k l]]]]]]]]]]|]; try discriminate. destruct (trans_map x); [|discriminate]. destruct (trans_map y); [|discriminate]. destruct (trans_map z); [|discriminate]. intros [= <-]. reflexivity.
Qed.
Lemma parse_homs s : forall n p gs, parse_gens s p n = SgOk gs -> Forall (fun g => hom g = 1) gs.
Proof.
  induction n as [|n IH]; intros p gs; cbn [parse_gens]; [intros [= <-]; constructor|]. destruct (parse_gen s p) as [g| |] eqn:E; try discriminate. destruct (parse_gens s (p + 4) n) as [r| |] eqn:E2; try discriminate. intros [= <-]. constructor; [eapply parse_hom; exact E|eapply IH; exact E2].
Qed.
Lemma read_homs sg st gens : read_sg_gen_string sg st = SgOk gens -> Forall (fun g => hom g = 1) gens /\ In identity_op gens.
Proof.
  unfold read_sg_gen_string. destruct (get 0 _) as [c0|]; [|discriminate]. destruct (get 1 _) as [c1|]; [|discriminate]. destruct (parse_gens _ _ _) as [gs| |] eqn:E; try discriminate. apply parse_homs in E.
  assert (F : Forall (fun g => hom g = 1) (identity_op :: (if Ascii.eqb c0 "1" then [inversion_op] else []) ++ gs)) by (constructor; [reflexivity|apply Forall_app; split; [destruct (Ascii.eqb c0 "1"); repeat constructor|exact E]]).
  assert (I : In identity_op (identity_op :: (if Ascii.eqb c0 "1" then [inversion_op] else []) ++ gs)) by (left; reflexivity).
  destruct (get (2 + 4 * digit c1) _) as [fl|]; [|discriminate]. destruct (negb (Ascii.eqb fl "0") && Nat.eqb st 2)%bool; [destruct (trans_map fl); [|discriminate]|]; intros [= <-]; split; assumption.
Qed.
Theorem operators_generated sg ops : (1 <= sg <= 230)%nat -> sg_operators sg 1 = SgOk ops -> exists gens, read_sg_gen_string sg 1 = SgOk gens /\
  (forall o, In o ops -> generated gens o) /\ (forall o, generated gens o -> exists o', In o' ops /\ same_operator o o').
Proof.
  intros R E. destruct (group_facts sg R) as [ops' [E' [[_ [CL _]] _]]]. rewrite E in E'. injection E' as <-. unfold sg_operators in E. destruct (read_sg_gen_string sg 1) as [gens| |] eqn:G; try discriminate. exists gens. split; [reflexivity|].
  destruct (read_homs _ _ _ G) as [H ID]. injection E as <-. match goal with |- context [close ?x gens] => set (d := x) in * end.
  assert (B : good gens gens). { apply Forall_forall. intros o I. rewrite Forall_forall in H. split; [apply H; exact I|apply gen_in; exact I]. }
  destruct (close_good gens d gens B) as [GC IC]. split.
  - intros o I. apply in_map_iff in I as [o' [<- I]]. unfold good in GC. rewrite Forall_forall in GC. destruct (GC o' I) as [_ GO]. eapply gen_mul; [exact GO|apply gen_in; exact ID|].
    intros p. eapply leq_trans; [apply final_same|]. apply act_leq. apply leq_sym, id_spec. reflexivity.
  - intros o GO. induction GO as [g I|a b c _ [a' [Ia Sa]] _ [b' [Ib Sb]] C].
    + exists (final_op g). split; [apply in_map, IC; exact I|]. intros p. apply leq_sym, final_same.
    + destruct (CL a' b' Ia Ib) as [c' [Ic C']]. exists c'. split; [exact Ic|]. intros p. eapply leq_trans; [apply C|]. eapply leq_trans; [apply act_leq, Sb|]. eapply leq_trans; [apply Sa|]. apply leq_sym, C'.
Qed.
