(** the position of a pixel among the tiles; the mirror padding *)
From Verif Require Import Base BaseFacts ExpModel ExpProofs MpModel MpSpec MpProofs ClaheModel ClaheSpec ClaheProofs.
Open Scope R_scope.

Lemma isum_two n g a : (a < n)%nat -> (forall k, (k < n)%nat -> k <> a -> k <> S a -> g k = 0) -> isum n g = g a + (if Nat.ltb (S a) n then g (S a) else 0).
Proof.
  intros Ha H. assert (P : forall m, (m <= n)%nat -> isum m g = (if Nat.ltb a m then g a else 0) + (if Nat.ltb (S a) m then g (S a) else 0)).
  { induction m as [|m IH]; intros Hm; [cbn; ring|]. cbn [isum]. rewrite IH by lia. destruct (Nat.ltb_spec a m), (Nat.ltb_spec (S a) m), (Nat.ltb_spec a (S m)), (Nat.ltb_spec (S a) (S m)); try lia; try ring.
    - rewrite (H m) by lia. ring.
    - replace (S a) with m by lia. ring.
    - replace a with m by lia. ring.
    - rewrite (H m) by lia. ring. }
  rewrite P by lia. destruct (Nat.ltb_spec a n); [reflexivity|lia].
Qed.
Lemma isum_ext n f g : (forall k, (k < n)%nat -> f k = g k) -> isum n f = isum n g.
Proof. induction n as [|n IH]; intros H; [reflexivity|]. cbn. rewrite IH by (intros; apply H; lia). rewrite H by lia. reflexivity. Qed.
Lemma isum_scal n c f : isum n (fun k => c * f k) = c * isum n f.
Proof. induction n as [|n IH]; cbn; [ring|]. rewrite IH. ring. Qed.
Lemma lerp_hat size f v : (1 <= size)%nat -> lerp1 size f v = isum size (fun k => hat (border size (unnorm size v) - INR k) * f k).
Proof.
  intros H. pose proof (axis_spec size (unnorm size v) H) as A. cbv zeta in A. destruct A as [A1 [A2 [A3 [A4 A5]]]]. unfold lerp1. cbv zeta. set (b := border size (unnorm size v)) in *. set (z := floorZ b) in *.
  pose proof (floor_spec b) as FS. fold z in FS. rewrite plus_IZR in *.
  assert (EZ : INR (Z.to_nat z) = IZR z) by (rewrite INR_IZR_INZ, Z2Nat.id by lia; reflexivity).
  rewrite (isum_two size _ (Z.to_nat z)).
  - replace (Z.to_nat (z + 1)) with (S (Z.to_nat z)) by lia. rewrite S_INR, EZ.
    assert (H1 : hat (b - IZR z) = IZR z + 1 - b) by (unfold hat; rewrite Rabs_pos_eq by lra; rewrite Rmax_right by lra; ring).
    assert (H2 : hat (b - (IZR z + 1)) = b - IZR z) by (unfold hat; rewrite Rabs_left1 by lra; rewrite Rmax_right by lra; ring).
    rewrite H1, H2. destruct (Z.ltb_spec (z + 1) (Z.of_nat size)), (Nat.ltb_spec (S (Z.to_nat z)) size); try lia; ring.
  - lia.
  - intros k Hk N1 N2. assert (hat (b - INR k) = 0) as ->; [|ring]. unfold hat. apply Rmax_left.
    destruct (Nat.lt_ge_cases k (Z.to_nat z)) as [G|G].
    + assert (INR k + 1 <= INR (Z.to_nat z)) by (rewrite <- S_INR; apply le_INR; lia). rewrite Rabs_pos_eq by lra. lra.
    + assert (INR (Z.to_nat z) + 2 <= INR k) by (replace 2 with (INR 2) by reflexivity; rewrite <- plus_INR; apply le_INR; lia). rewrite Rabs_left1 by lra. lra.
Qed.
Lemma tile_axis g n i : (1 <= n)%nat -> (i < n)%nat -> border g (unnorm g (lin n i)) = tile_pos g n i.
Proof.
  intros Hn Hi. unfold tile_pos, clampR, border. rewrite Rmax_comm. f_equal. f_equal. unfold unnorm, lin. destruct (Nat.eqb_spec n 1) as [->|N].
  - assert (i = 0)%nat by lia. subst i. cbn. unfold Rdiv. ring.
  - assert (0 < INR (n - 1)) by (apply lt_0_INR; lia). field. lra.
Qed.
Lemma level_axis nb v : border nb (unnorm nb (v * 2 - 1)) = level_pos nb v.
Proof. unfold level_pos, clampR, border. rewrite Rmax_comm. f_equal. f_equal. unfold unnorm. field. Qed.
Lemma clahe_blend m cl nb gh gw out i j : (1 <= nb)%nat -> (1 <= gh)%nat -> (1 <= gw)%nat -> clahe m cl nb gh gw = Some out -> (i < i_h m)%nat -> (j < i_w m)%nat ->
  px out i j = isum gh (fun a => hat (tile_pos gh (i_h m) i - INR a) * isum gw (fun b => hat (tile_pos gw (i_w m) j - INR b) *
    isum nb (fun k => hat (level_pos nb (px m i j) - INR k) * tile_cdf m cl nb gh gw a b k))).
Proof.
  intros N G1 G2 H Hi Hj. destruct (clahe_some _ _ _ _ _ _ H) as [_ [_ [_ [_ [_ [_ E]]]]]]. rewrite E by assumption. unfold equalise.
  rewrite lerp_hat, tile_axis by lia. apply isum_ext. intros a Ha. f_equal. rewrite lerp_hat, tile_axis by lia. apply isum_ext. intros b Hb. f_equal. rewrite lerp_hat, level_axis by assumption. reflexivity.
Qed.
Lemma reflect_mirror n g i : (1 <= g)%nat -> (padding n g < n)%nat -> (i < g * ceil_div n g)%nat -> mirror_of n i (reflect n i).
Proof. intros G P H. pose proof (padded_size n g G). unfold mirror_of, reflect. destruct (Nat.ltb_spec i n); lia. Qed.
Lemma tile_pixel m gh gw a b di dj : (1 <= gh)%nat -> (1 <= gw)%nat -> (padding (i_h m) gh < i_h m)%nat -> (padding (i_w m) gw < i_w m)%nat -> (a < gh)%nat -> (b < gw)%nat ->
  (di < ceil_div (i_h m) gh)%nat -> (dj < ceil_div (i_w m) gw)%nat ->
  exists r c, mirror_of (i_h m) (a * ceil_div (i_h m) gh + di) r /\ mirror_of (i_w m) (b * ceil_div (i_w m) gw + dj) c /\ (r < i_h m)%nat /\ (c < i_w m)%nat /\
    nth (di * ceil_div (i_w m) gw + dj) (tile m (ceil_div (i_h m) gh) (ceil_div (i_w m) gw) a b) 0 = px m r c.
Proof.
  intros G1 G2 P1 P2 A B D1 D2. set (ht := ceil_div (i_h m) gh) in *. set (wt := ceil_div (i_w m) gw) in *.
  assert (I1 : (a * ht + di < gh * ht)%nat) by nia. assert (I2 : (b * wt + dj < gw * wt)%nat) by nia.
  exists (reflect (i_h m) (a * ht + di)), (reflect (i_w m) (b * wt + dj)).
  split; [now apply (reflect_mirror _ gh)|]. split; [now apply (reflect_mirror _ gw)|]. split; [now apply (reflect_lt _ gh)|]. split; [now apply (reflect_lt _ gw)|].
  unfold tile. rewrite (flat_map_nth _ 0 0%nat wt) by (rewrite ?seq_length; try assumption; intros; rewrite map_length, seq_length; reflexivity). rewrite seq_nth by assumption.
  rewrite (nth_indep _ 0 (padded m (a * ht + (0 + di)) (b * wt + 0))) by (rewrite map_length, seq_length; assumption).
  change (padded m (a * ht + (0 + di)) (b * wt + 0)) with ((fun dj => padded m (a * ht + (0 + di)) (b * wt + dj)) 0%nat). rewrite map_nth, seq_nth by assumption. reflexivity.
Qed.
(** without a clip limit the curve of a tile is its empirical distribution *)
Lemma zsum_cons x l : zsum (x :: l) = (x + zsum l)%Z.
Proof. reflexivity. Qed.
Lemma zsum_app2 a b : zsum (a ++ b) = (zsum a + zsum b)%Z.
Proof. induction a as [|x a IH]; [reflexivity|]. rewrite <- app_comm_cons, !zsum_cons, IH. lia. Qed.
Lemma count_below bs n : zsum (map (fun k => Z.of_nat (count_occ Z.eq_dec bs (Z.of_nat k))) (seq 0 n)) = Z.of_nat (List.length (filter (fun z => Z.leb 0 z && Z.ltb z (Z.of_nat n))%bool bs)).
Proof.
  induction bs as [|z bs IH].
  - cbn [count_occ filter List.length]. change (fun _ : nat => Z.of_nat 0) with (fun _ : nat => 0%Z). rewrite zsum_const. lia.
  - cbn [filter]. 
    assert (E : zsum (map (fun k => Z.of_nat (count_occ Z.eq_dec (z :: bs) (Z.of_nat k))) (seq 0 n)) = (zsum (map (fun k => if Z.eq_dec z (Z.of_nat k) then 1%Z else 0%Z) (seq 0 n)) + zsum (map (fun k => Z.of_nat (count_occ Z.eq_dec bs (Z.of_nat k))) (seq 0 n)))%Z).
    { rewrite <- zsum_map_add. f_equal. apply map_ext. intros k. cbn [count_occ]. destruct (Z.eq_dec z (Z.of_nat k)); lia. }
    rewrite E, IH. clear E IH.
    assert (Q : zsum (map (fun k => if Z.eq_dec z (Z.of_nat k) then 1%Z else 0%Z) (seq 0 n)) = (if (Z.leb 0 z && Z.ltb z (Z.of_nat n))%bool then 1 else 0)%Z).
    { induction n as [|n IH]; [cbn; destruct (Z.leb_spec 0 z), (Z.ltb_spec z 0); try lia; reflexivity|]. rewrite seq_S, map_app, zsum_app2, IH. cbn [map Nat.add]. rewrite zsum_cons. change (zsum []) with 0%Z.
      destruct (Z.eq_dec z (Z.of_nat n)), (Z.leb_spec 0 z), (Z.ltb_spec z (Z.of_nat n)), (Z.ltb_spec z (Z.of_nat (S n))); cbn [andb]; lia. }
    rewrite Q. destruct (Z.leb 0 z && Z.ltb z (Z.of_nat n))%bool; cbn [List.length]; lia.
Qed.
Lemma cdf_empirical m cl nb gh gw out a b k : (1 <= nb)%nat -> (1 <= gh)%nat -> (1 <= gw)%nat -> clahe m cl nb gh gw = Some out -> cl <= 0 -> pixels_within m 0 1 -> (a < gh)%nat -> (b < gw)%nat -> (k < nb)%nat ->
  let t := tile m (ceil_div (i_h m) gh) (ceil_div (i_w m) gw) a b in
  tile_cdf m cl nb gh gw a b k = INR (at_most_level nb k t) / INR (List.length t).
Proof.
  intros N G1 G2 H C P A B K t. destruct (clahe_some _ _ _ _ _ _ H) as [_ [_ [_ [P1 [P2 _]]]]].
  assert (V : forall x, In x t -> 0 <= x <= 1) by (intros x Hx; destruct (tile_range m gh gw a b G1 G2 P1 P2 A B x Hx) as (r & c & R1 & C1 & ->); now apply P).
  assert (L : List.length t = (ceil_div (i_h m) gh * ceil_div (i_w m) gw)%nat) by apply tile_length.
  unfold tile_cdf. fold t. rewrite <- L. unfold limited. destruct (Rlt_dec 0 cl); [lra|]. unfold cdf_at.
  assert (E : zsum (firstn (S k) (histogram nb (map (bin_of nb) t))) = Z.of_nat (at_most_level nb k t)).
  { unfold histogram. rewrite firstn_map. replace (firstn (S k) (seq 0 nb)) with (seq 0 (S k)).
    2:{ replace nb with (S k + (nb - S k))%nat by lia. rewrite seq_app, firstn_app, firstn_all2 by (rewrite seq_length; lia). rewrite seq_length, Nat.sub_diag. cbn [firstn]. now rewrite app_nil_r. }
    rewrite count_below. f_equal. unfold at_most_level. clear L. induction t as [|x t IH]; [reflexivity|]. cbn [map filter].
    assert (Vx := V x (or_introl eq_refl)). assert (IH' := IH (fun y Hy => V y (or_intror Hy))). clear IH. rename IH' into IH.
    assert (BE : (Z.leb 0 (bin_of nb x) && Z.ltb (bin_of nb x) (Z.of_nat (S k)))%bool = (if Rlt_dec (x * INR (nb - 1)) (INR (S k)) then true else false)).
    { destruct (bin_range nb x N Vx) as [B0 _]. rewrite (proj2 (Z.leb_le _ _) B0). cbn [andb]. unfold bin_of, truncZ in *. assert (0 <= INR (nb - 1)) by apply pos_INR. assert (0 <= x * INR (nb - 1)) by (apply Rmult_le_pos; lra).
      destruct (Rle_dec 0 (x * INR (nb - 1))); [|lra]. pose proof (floor_spec (x * INR (nb - 1))) as F. set (y := x * INR (nb - 1)) in *. rewrite (INR_IZR_INZ (S k)). destruct (Z.ltb_spec (floorZ y) (Z.of_nat (S k))) as [G|G], (Rlt_dec y (IZR (Z.of_nat (S k)))) as [D|D]; try reflexivity; exfalso.
      - assert (floorZ y + 1 <= Z.of_nat (S k))%Z as I by lia. apply IZR_le in I. rewrite plus_IZR in I. lra.
      - apply IZR_le in G. lra. }
    rewrite BE. destruct (Rlt_dec (x * INR (nb - 1)) (INR (S k))); cbn [List.length]; lia. }
  rewrite E, <- INR_IZR_INZ.
  assert (T0 : (0 < List.length t)%nat).
  { rewrite L. pose proof (padded_size (i_h m) gh G1). pose proof (padded_size (i_w m) gw G2). assert (ceil_div (i_h m) gh <> 0)%nat by (intros Z0; rewrite Z0 in *; lia). assert (ceil_div (i_w m) gw <> 0)%nat by (intros Z0; rewrite Z0 in *; lia). nia. }
  assert (LE : (at_most_level nb k t <= List.length t)%nat) by (unfold at_most_level; clear; induction t as [|x t IH]; cbn [filter List.length]; [lia|]; destruct (Rlt_dec _ _); cbn [List.length]; lia).
  assert (0 < INR (List.length t)) by (apply lt_0_INR; assumption). apply le_INR in LE. pose proof (pos_INR (at_most_level nb k t)).
  rewrite Rmax_left by (apply Rmult_le_pos; [assumption|left; now apply Rinv_0_lt_compat]). apply Rmin_left. apply Rmult_le_reg_r with (INR (List.length t)); [assumption|]. unfold Rdiv. rewrite Rmult_assoc, Rinv_l by lra. lra.
Qed.
