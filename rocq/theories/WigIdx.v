(** Flat positions: proofs *)
From Verif Require Import Base WigModel WigSpec.
Local Open Scope Z_scope.

Lemma even_tri l : exists t, l * (l + 1) = 2 * t.
Proof.
  destruct (Z.Even_or_Odd l) as [[q ->]|[q ->]]; [exists (q * (2 * q + 1)) | exists ((2 * q + 1) * (q + 1))]; ring.
Qed.
Lemma six_tet l : exists t, l * (l + 1) * (l + 2) = 6 * t.
Proof.
  destruct (even_tri l) as [t2 H2].
  assert (H3 : exists t3, l * (l + 1) * (l + 2) = 3 * t3).
  { pose proof (Z.div_mod l 3 ltac:(lia)) as D. pose proof (Z.mod_pos_bound l 3 ltac:(lia)) as B.
    set (q := l / 3) in *. set (r := l mod 3) in *. assert (r = 0 \/ r = 1 \/ r = 2) as [E|[E|E]] by lia; rewrite E in D; rewrite D.
    - exists (q * (3 * q + 1) * (3 * q + 2)); ring.
    - exists ((3 * q + 1) * (3 * q + 2) * (q + 1)); ring.
    - exists ((3 * q + 2) * (q + 1) * (3 * q + 4)); ring. }
  destruct H3 as [t3 H3].
  exists (t2 * (l + 2) - t3). rewrite H2 in H3. rewrite H2. lia.
Qed.
Lemma tri2_spec l : 2 * (l * (l + 1) / 2) = l * (l + 1).
Proof. destruct (even_tri l) as [t ->]. rewrite (Z.mul_comm 2 t), Z.div_mul; lia. Qed.
Lemma tet6_spec l : 6 * (l * (l + 1) * (l + 2) / 6) = l * (l + 1) * (l + 2).
Proof. destruct (six_tet l) as [t ->]. rewrite (Z.mul_comm 6 t), Z.div_mul; lia. Qed.
Lemma tet3_spec l : 6 * ((l * (l + 1)) / 2 * (l + 2) / 3) = l * (l + 1) * (l + 2).
Proof.
  destruct (six_tet l) as [t Ht]. pose proof (tri2_spec l) as E.
  set (x := l * (l + 1) / 2) in *. assert (X : x * (l + 2) = t * 3) by nia.
  rewrite X, Z.div_mul by lia. lia.
Qed.
Lemma tet3_tet6 l : (l * (l + 1)) / 2 * (l + 2) / 3 = tet6 l.
Proof. unfold tet6. pose proof (tet3_spec l). pose proof (tet6_spec l). lia. Qed.
Lemma tet6_eq l : 6 * tet6 l = l * (l + 1) * (l + 2). Proof. apply tet6_spec. Qed.
Lemma tri2_eq l : 2 * tri2 l = l * (l + 1). Proof. apply tri2_spec. Qed.
Lemma index_eq l m n : index_from_coords (l, m, n) = tet6 l + tri2 m + n.
Proof. unfold index_from_coords. rewrite tet3_tet6. reflexivity. Qed.
Global Opaque index_from_coords.

Lemma tri2_succ m : tri2 (m + 1) = tri2 m + m + 1.
Proof. pose proof (tri2_eq m). pose proof (tri2_eq (m + 1)). nia. Qed.
Lemma tet6_succ l : tet6 (l + 1) = tet6 l + tri2 (l + 1).
Proof. pose proof (tet6_eq l). pose proof (tet6_eq (l + 1)). pose proof (tri2_eq (l + 1)). nia. Qed.
Lemma tri2_mono a b : 0 <= a <= b -> tri2 a <= tri2 b.
Proof. intros H. pose proof (tri2_eq a). pose proof (tri2_eq b). nia. Qed.
Lemma tet6_mono a b : 0 <= a <= b -> tet6 a <= tet6 b.
Proof.
  intros H. pose proof (tet6_eq a). pose proof (tet6_eq b).
  assert (a * (a + 1) <= b * (b + 1)) by nia. assert (a * (a + 1) * (a + 2) <= b * (b + 1) * (b + 2)) by nia. lia.
Qed.
Lemma tri2_nonneg a : 0 <= a -> 0 <= tri2 a.
Proof. intros. pose proof (tri2_eq a). nia. Qed.
Lemma tet6_nonneg a : 0 <= a -> 0 <= tet6 a.
Proof. intros. pose proof (tet6_eq a). assert (0 <= a * (a + 1)) by nia. nia. Qed.

(** position within its block *)
Lemma index_block l m n : adm (l, m, n) -> tet6 l + tri2 m <= index_from_coords (l, m, n) < tet6 l + tri2 (m + 1)
  /\ tet6 l <= index_from_coords (l, m, n) < tet6 (l + 1).
Proof.
  intros [H1 H2]. rewrite index_eq. rewrite tet6_succ. pose proof (tri2_succ m). pose proof (tri2_succ l).
  pose proof (tri2_mono m l ltac:(lia)). pose proof (tri2_nonneg m ltac:(lia)).
  pose proof (tri2_mono (m + 1) (l + 1) ltac:(lia)). lia.
Qed.
Lemma index_mono c d : adm c -> adm d -> lex_lt c d -> index_from_coords c < index_from_coords d.
Proof.
  destruct c as [[l m] n], d as [[l' m'] n']. intros A B H.
  pose proof (index_block _ _ _ A) as [A1 A2]. pose proof (index_block _ _ _ B) as [B1 B2].
  destruct A as [A3 A4], B as [B3 B4].
  destruct H as [H|[-> [H|[-> H]]]].
  - pose proof (tet6_mono (l + 1) l' ltac:(lia)). lia.
  - pose proof (tri2_mono (m + 1) m' ltac:(lia)). lia.
  - rewrite !index_eq. lia.
Qed.
Lemma index_inj c d : adm c -> adm d -> index_from_coords c = index_from_coords d -> c = d.
Proof.
  intros A B E. destruct c as [[l m] n], d as [[l' m'] n'].
  destruct (Z.lt_trichotomy l l') as [H|[->|H]].
  - pose proof (index_mono _ _ A B (or_introl H)). lia.
  - destruct (Z.lt_trichotomy m m') as [H|[->|H]].
    + pose proof (index_mono _ _ A B (or_intror (conj eq_refl (or_introl H)))). lia.
    + rewrite !index_eq in E. f_equal. lia.
    + pose proof (index_mono _ _ B A (or_intror (conj eq_refl (or_introl H)))). lia.
  - pose proof (index_mono _ _ B A (or_introl H)). lia.
Qed.

(** int32 *)
Lemma w32_id z : - 2 ^ 31 <= z < 2 ^ 31 -> w32 z = z.
Proof. intros H. unfold w32. rewrite Z.mod_small; lia. Qed.
Lemma index32_ok l m n : adm (l, m, n) -> l <= 1624 -> index32 (l, m, n) = index_from_coords (l, m, n).
Proof.
  intros A H. pose proof (index_block l m n A) as [B1 B2]. destruct A as [A1 A2].
  pose proof (tet6_mono (l + 1) 1625 ltac:(lia)) as M. pose proof (tet6_nonneg l ltac:(lia)) as P.
  assert (V : tet6 1625 < 2 ^ 31) by reflexivity. pose proof (tri2_eq m) as V2. pose proof (tri2_eq l) as V3. pose proof (tet6_eq l) as V4.
  pose proof (tet6_spec l) as V5.
  unfold index32. rewrite index_eq in *.
  rewrite (w32_id (l + 1)), (w32_id (l + 2)), (w32_id (m + 1)) by lia.
  assert (Hm : 0 <= m * (m + 1) <= 1624 * 1625) by nia. assert (Hl : 0 <= l * (l + 1) <= 1624 * 1625) by nia.
  rewrite (w32_id (l * (l + 1))), (w32_id (m * (m + 1))) by lia.
  change (l * (l + 1) / 2) with (tri2 l). change (m * (m + 1) / 2) with (tri2 m).
  rewrite (w32_id (tri2 l * (l + 2))) by nia.
  assert (E : tri2 l * (l + 2) / 3 = tet6 l) by apply tet3_tet6. rewrite E.
  rewrite (w32_id (tet6 l + tri2 m)) by lia. apply w32_id. lia.
Qed.

(** the while loops *)
Section Descend.
Variable f : Z -> Z.
Hypothesis fmono : forall a b, 0 <= a <= b -> f a <= f b.
Definition root (p : Z * Z) (l : Z) : Prop := 0 <= l <= snd p /\ f l <= fst p < f (l + 1).
Lemma descend_ok : forall (fuel : nat) st ls,
  Forall2 root st ls -> Forall2 (fun p l => snd p - l <= Z.of_nat fuel) st ls ->
  descend f fuel st = Some (combine (map fst st) ls).
Proof.
  induction fuel as [|k IH]; intros st ls HR HB.
  - assert (E : existsb (over f) st = false /\ st = combine (map fst st) ls).
    { clear -HR HB fmono. induction HR as [|p l st ls Hp HR IH]; [split; reflexivity|].
      inversion HB as [|? ? ? ? B1 B2]; subst. destruct (IH B2) as [E1 E2]. destruct Hp as [P1 P2].
      assert (E : snd p = l) by lia. cbn. split.
      - rewrite E1, Bool.orb_false_r. unfold over. rewrite E. apply Z.ltb_ge. lia.
      - rewrite <- E2. destruct p as [p1 p2]. cbn in *. congruence. }
    destruct E as [E1 E2]. cbn. rewrite E1. congruence.
  - cbn. destruct (existsb (over f) st) eqn:EX.
    + set (g := fun p => if over f p then (fst p, snd p - 1) else p).
      assert (M : map fst (map g st) = map fst st).
      { rewrite map_map. apply map_ext. intros p. unfold g. destruct (over f p); reflexivity. }
      rewrite <- M. apply IH.
      * clear -HR fmono. induction HR as [|p l st ls Hp HR IH]; cbn; constructor; auto.
        destruct Hp as [P1 P2]. unfold g, over. destruct (fst p - f (snd p) <? 0) eqn:E; [|split; auto].
        apply Z.ltb_lt in E. split; cbn; [|lia]. destruct (Z.eq_dec l (snd p)); [subst; lia|lia].
      * clear -HR HB fmono. revert HB. induction HR as [|p l st ls Hp HR IH]; intros HB; cbn; constructor.
        -- inversion HB as [|? ? ? ? B1 B2]; subst. destruct Hp as [P1 P2]. unfold g, over.
           destruct (fst p - f (snd p) <? 0) eqn:E; cbn; [lia|]. apply Z.ltb_ge in E.
           destruct (Z.eq_dec l (snd p)) as [->|N]; [lia|]. pose proof (fmono (l + 1) (snd p) ltac:(lia)). lia.
        -- inversion HB; subst; auto.
    + f_equal. clear -HR EX fmono. induction HR as [|p l st ls Hp HR IH]; [reflexivity|].
      cbn in EX. apply Bool.orb_false_iff in EX. destruct EX as [E1 E2]. cbn. rewrite <- IH by exact E2.
      destruct Hp as [P1 P2]. unfold over in E1. apply Z.ltb_ge in E1.
      destruct p as [p1 p2]. cbn in *. f_equal. f_equal. destruct (Z.eq_dec l p2) as [->|N]; [reflexivity|].
      pose proof (fmono (l + 1) p2 ltac:(lia)). lia.
Qed.
Lemma descend_more : forall fuel st r, descend f fuel st = Some r -> forall k, (fuel <= k)%nat -> descend f k st = Some r.
Proof.
  induction fuel as [|n IH]; intros st r H k Hk; destruct k as [|k]; try lia; cbn in *; destruct (existsb (over f) st); auto;
    try discriminate. apply IH with (1 := H). lia.
Qed.
End Descend.

Lemma F2_length {A B} (P : A -> B -> Prop) x y : Forall2 P x y -> List.length x = List.length y.
Proof. induction 1; cbn; auto. Qed.
Lemma floor_ge x (l : Z) : (IZR l <= x)%R -> l <= Int_part x.
Proof. intros H. destruct (base_Int_part x) as [A B]. apply Z.lt_succ_r, lt_IZR. rewrite succ_IZR. lra. Qed.

(** the batch of true coordinates *)
Definition idx_ok (c : coord) (x : R) : Prop := let '(l, m, n) := c in (IZR l - 1 <= x)%R.
Lemma coords_ok : forall cs lfp mfp,
  Forall adm cs -> Forall2 idx_ok cs lfp ->
  (forall c, In c cs -> (IZR (snd (fst c)) - 1 <= mfp (tri2 (snd (fst c)) + snd c)%Z)%R) ->
  exists fuel, forall k, (fuel <= k)%nat -> coords_from_index k (map index_from_coords cs) lfp mfp = Some cs.
Proof.
  intros cs lfp mfp HA HL HM.
  set (est := map (fun x => Int_part x + 1) lfp).
  set (st := combine (map index_from_coords cs) est).
  set (ls := map (fun c : coord => fst (fst c)) cs).
  set (rs := map (fun c : coord => tri2 (snd (fst c)) + snd c) cs).
  set (st2 := map (fun r => (r, Int_part (mfp r) + 1)) rs).
  set (ms := map (fun c : coord => snd (fst c)) cs).
  assert (R1 : Forall2 (root tet6) st ls).
  { unfold st, ls, est. clear st ls st2 ms rs est HM. revert HA. induction HL as [|c x cs lfp Hc HL IH]; intros HA; cbn; constructor.
    - inversion HA as [|? ? A1 A2]; subst. destruct c as [[l m] n]. destruct (index_block l m n A1) as [_ B]. destruct A1 as [A3 A4].
      split; cbn; [|exact B]. split; [lia|]. cbn in Hc.
      assert (l - 1 <= Int_part x) by (apply floor_ge; rewrite minus_IZR; exact Hc). lia.
    - inversion HA; subst. apply IH; auto. }
  assert (R2 : Forall2 (root tri2) st2 ms).
  { unfold st2, ms, rs. clear st ls st2 ms rs est R1 HL. induction HA as [|c cs A1 HA IH]; cbn; constructor.
    - destruct c as [[l m] n]. destruct A1 as [A3 A4]. split; cbn.
      + split; [lia|]. specialize (HM (l, m, n) (or_introl eq_refl)). cbn in HM.
        assert (m - 1 <= Int_part (mfp (tri2 m + n))) by (apply floor_ge; rewrite minus_IZR; exact HM). lia.
      + pose proof (tri2_succ m). lia.
    - apply IH. intros c' Hc'. apply HM. now right. }
  assert (fuel_of : forall st ls, exists fuel : nat, Forall2 (fun (p : Z * Z) l => snd p - l <= Z.of_nat fuel) st ls \/ List.length st <> List.length ls).
  { clear. induction st as [|p st IH]; intros [|l ls]; try (exists O; right; discriminate). { exists O. left. constructor. }
    destruct (IH ls) as [f [H|H]].
    - exists (Nat.max f (Z.to_nat (snd p - l))). left. constructor; [lia|].
      clear -H. induction H; constructor; auto; lia.
    - exists O. right. cbn. lia. }
  destruct (fuel_of st ls) as [f1 [F1|F1]]; [|exfalso; apply F1; apply (F2_length _ _ _ R1)].
  destruct (fuel_of st2 ms) as [f2 [F2|F2]]; [|exfalso; apply F2; apply (F2_length _ _ _ R2)].
  exists (Nat.max f1 f2). intros k Hk. unfold coords_from_index. fold est. fold st.
  rewrite (descend_more tet6 f1 st _ (descend_ok tet6 (fun a b => tet6_mono a b) f1 st ls R1 F1) k) by lia.
  assert (LL : List.length lfp = List.length cs) by (symmetry; apply (F2_length _ _ _ HL)).
  assert (ES : combine (map fst st) ls = map (fun c : coord => (index_from_coords c, fst (fst c))) cs).
  { unfold st, ls, est. clear -LL. revert lfp LL. induction cs as [|c cs IH]; intros [|x lfp] LL; cbn in *; try discriminate; auto.
    f_equal. apply IH. lia. }
  assert (ER : map (fun p => fst p - tet6 (snd p)) (combine (map fst st) ls) = rs).
  { rewrite ES, map_map. unfold rs. apply map_ext. intros [[l m] n]. rewrite index_eq. cbn. lia. }
  cbv zeta. rewrite ER, ES. fold st2.
  rewrite (descend_more tri2 f2 st2 _ (descend_ok tri2 (fun a b => tri2_mono a b) f2 st2 ms R2 F2) k) by lia.
  f_equal. unfold st2, ms, rs. rewrite !map_map.
  clear. induction cs as [|[[l m] n] cs IH]; [reflexivity|]. cbn. f_equal; [|exact IH].
  f_equal. lia.
Qed.

(** the exact estimates are good enough *)
Lemma cardano x : (1 <= x)%R -> let y := (l_fp x + 1)%R in (0 < y /\ y * y * y - y = 6 * x)%R.
Proof.
  intros Hx. cbv zeta. remember (l_fp x + 1)%R as y eqn:Y0. unfold l_fp in Y0.
  assert (P : (0 < 9 * x * x - 1 / 27)%R) by nra.
  rewrite (Rabs_pos_eq (9 * x * x - 1 / 27)) in Y0 by lra.
  set (d := sqrt (9 * x * x - 1 / 27)) in *.
  assert (D0 : (0 <= d)%R) by apply sqrt_pos.
  assert (D2 : (d * d = 9 * x * x - 1 / 27)%R) by (apply sqrt_sqrt; lra).
  assert (DL : (d < 3 * x)%R) by nra.
  rewrite (Rabs_pos_eq (3 * x - d)) in Y0 by lra.
  set (a := Rpower (3 * x + d) (1 / 3) ) in *. set (b := Rpower (3 * x - d) (1 / 3)) in *.
  assert (cube : forall z, (0 < z)%R -> (Rpower z (1 / 3) * Rpower z (1 / 3) * Rpower z (1 / 3) = z)%R).
  { intros z Hz. rewrite <- !Rpower_plus. replace (1 / 3 + 1 / 3 + 1 / 3)%R with 1%R by field. apply Rpower_1, Hz. }
  assert (A3 : (a * a * a = 3 * x + d)%R) by (apply cube; lra).
  assert (B3 : (b * b * b = 3 * x - d)%R) by (apply cube; lra).
  assert (AB : (a * b = 1 / 3)%R).
  { unfold a, b. rewrite Rpower_mult_distr by lra. replace ((3 * x + d) * (3 * x - d))%R with (/ 27)%R by nra.
    assert (E : (/ 27 = Rpower (1 / 3) 3)%R).
    { replace 3%R with (INR 3) at 2 by (cbn; lra). rewrite Rpower_pow by lra. field. }
    rewrite E, Rpower_mult. replace (3 * (1 / 3))%R with 1%R by field. apply Rpower_1. lra. }
  assert (Pa : (0 < a)%R) by apply exp_pos. assert (Pb : (0 < b)%R) by apply exp_pos.
  assert (Y : y = (a + b)%R) by (rewrite Y0; ring). rewrite Y. split; [lra|].
  replace ((a + b) * (a + b) * (a + b) - (a + b))%R with (a * a * a + b * b * b + 3 * (a * b) * (a + b) - (a + b))%R by ring.
  rewrite A3, B3, AB. lra.
Qed.
Lemma l_fp_inverts l m n : adm (l, m, n) -> (IZR l - 1 <= l_fp (IZR (index_from_coords (l, m, n))))%R.
Proof.
  intros A. pose proof (index_block l m n A) as [_ [B _]]. destruct A as [A1 A2].
  destruct (Z.eq_dec (index_from_coords (l, m, n)) 0) as [E|N].
  - assert (l = 0). { destruct (Z.eq_dec l 0); auto. pose proof (tet6_mono 1 l ltac:(lia)). pose proof (tet6_eq 1). lia. }
    subst l. unfold l_fp.
    match goal with |- (_ <= Rpower ?x ?e + Rpower ?y ?g - 1)%R =>
      pose proof (exp_pos (e * ln x)); pose proof (exp_pos (g * ln y)) end.
    unfold Rpower. lra.
  - pose proof (tet6_nonneg l ltac:(lia)) as TP.
    assert (X : (1 <= IZR (index_from_coords (l, m, n)))%R) by (apply (IZR_le 1); lia).
    destruct (cardano _ X) as [Y1 Y2]. set (x := IZR (index_from_coords (l, m, n))) in *. set (y := (l_fp x + 1)%R) in *.
    assert (L0 : (0 <= IZR l)%R) by (apply (IZR_le 0); lia).
    assert (T : (IZR l * (IZR l + 1) * (IZR l + 2) <= 6 * x)%R).
    { unfold x. rewrite <- (plus_IZR l 1), <- (plus_IZR l 2), <- !mult_IZR. apply IZR_le. rewrite <- tet6_eq. lia. }
    assert (y >= IZR l)%R; [|unfold y in *; lra].
    apply Rle_ge, Rnot_lt_le. intros C.
    assert (y * y * y < IZR l * IZR l * IZR l + 1 * y)%R; [|].
    { assert (y * y < IZR l * IZR l)%R by nra. nra. }
    assert (IZR l * (IZR l + 1) * (IZR l + 2) = IZR l * IZR l * IZR l + 3 * (IZR l * IZR l) + 2 * IZR l)%R by ring.
    nra.
Qed.
Lemma m_fp_inverts m n : 0 <= n <= m -> (IZR m - 1 <= m_fp (tri2 m + n))%R.
Proof.
  intros H. unfold m_fp.
  assert (A : (IZR m <= (-1 + sqrt (1 + 8 * IZR (tri2 m + n))) / 2)%R).
  { assert ((2 * IZR m + 1) <= sqrt (1 + 8 * IZR (tri2 m + n)))%R; [|lra].
    assert (M0 : (0 <= IZR m)%R) by (apply (IZR_le 0); lia).
    rewrite <- (sqrt_square (2 * IZR m + 1)) by lra. apply sqrt_le_1_alt.
    assert (E : (4 * (IZR m * (IZR m + 1)) <= 8 * IZR (tri2 m + n))%R); [|nra].
    rewrite <- (plus_IZR m 1), <- !mult_IZR. apply IZR_le. pose proof (tri2_eq m). lia. }
  apply floor_ge in A. apply IZR_le in A. lra.
Qed.
