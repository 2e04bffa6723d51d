From Verif Require Import Base QuatModel KnnSpec ExpModel IndexModel FitModel FitSpec FitProofs RefineSpec.
Lemma tiny_score zs z q : score_at tiny_size zs tiny_sim z 0 0 tiny_pat q = - qw q /\ score_at tiny_size zs tiny_sim z 0 1 tiny_pat q = qw q /\
  score_at tiny_size zs tiny_sim z 0 0 tiny_inv q = qw q /\ score_at tiny_size zs tiny_sim z 0 1 tiny_inv q = - qw q.
Proof. unfold score_at, dots_full, fftshift, xcorr, coord_sum, tiny_size, tiny_sim, rows_of, cols_of, padded. cbn -[Rplus Rmult Ropp IZR Rdiv]. unfold tiny_inv, tiny_pat.  repeat split; field. Qed.
Lemma am1 am x : picks_max am -> am [x] = 0%nat.
Proof. intros H. destruct (H [x]) as [L _]; [discriminate|]. cbn in L. lia. Qed.
Lemma am2 am a b : picks_max am -> a < b -> am [a; b] = 1%nat.
Proof.
  intros H L. destruct (H [a; b]) as [B M]; [discriminate|]. destruct (am [a; b]) as [|[|n]]; [|reflexivity|cbn in B; lia].
  specialize (M 1%nat ltac:(cbn; lia)). cbn [nth] in M. lra.
Qed.
Lemma cell_neg2 am batch a b : picks_max am -> (1 <= batch)%nat -> a < 0 -> b < 0 -> cell am batch [a; b] = (0, 0%nat).
Proof. intros H B A A'. apply cell_negative; [exact H|exact B|]. intros s [<-|[<-|[]]]; assumption. Qed.
(** batch size 1: the index within the last winning batch is 0 *)
Lemma cell_pos1 am a b : picks_max am -> 0 < a -> a < b -> cell am 1 [a; b] = (b, 0%nat).
Proof.
  intros H A B. unfold cell, cell_scan. cbn [List.length split_go firstn skipn fold_left]. unfold cell_step. cbn [fst snd]. rewrite !(am1 am) by exact H. cbn [nth].
  rewrite (Rmax_right 0 a), (Rmax_right a b) by lra. destruct (Req_EM_T b b) as [_|N]; [|congruence]. reflexivity.
Qed.
Lemma cell_pos2 am a b : picks_max am -> 0 < a -> a < b -> cell am 2 [a; b] = (b, 1%nat).
Proof.
  intros H A B. unfold cell, cell_scan. cbn [List.length split_go firstn skipn fold_left]. unfold cell_step. cbn [fst snd]. rewrite !(am2 am) by assumption. cbn [nth].
  rewrite (Rmax_right 0 b) by lra. destruct (Req_EM_T b b) as [_|N]; [|congruence]. reflexivity.
Qed.
Lemma cell_first am a b : picks_max am -> b < a -> 0 < a -> cell am 2 [a; b] = (a, 0%nat).
Proof.
  intros H B A. unfold cell, cell_scan. cbn [List.length split_go firstn skipn fold_left]. unfold cell_step. cbn [fst snd].
  assert (E : am [a; b] = 0%nat). { destruct (H [a; b]) as [L M]; [discriminate|]. destruct (am [a; b]) as [|[|n]]; [reflexivity| |cbn in L; lia]. specialize (M 0%nat ltac:(cbn; lia)). cbn [nth] in M. lra. }
  rewrite !E. cbn [nth]. rewrite (Rmax_right 0 a) by lra. destruct (Req_EM_T a a) as [_|N]; [|congruence]. reflexivity.
Qed.
Section Run.
Variable am : list R -> nat.
Hypothesis H : picks_max am.
Lemma tiny_report : mkV (report 0 2 1) (report 0 1 0) 0 = mkV (1/2) (-1/2) 0.
Proof.
  unfold report. change (Z.of_nat 1 - Z.of_nat 0 - Z.of_nat ((2 + 1) / 2))%Z with 0%Z. change (Z.of_nat 0 - Z.of_nat 0 - Z.of_nat ((1 + 1) / 2))%Z with (-1)%Z. f_equal; simpl; field.
Qed.
Ltac go :=
  unfold fitter; cbn [Nat.eqb]; change (Nat.odd (cols_of tiny_size)) with false; cbn iota;
  change (positions (List.length [0]) (rows_of tiny_size) (cols_of tiny_size)) with [(0, 0, 0); (0, 0, 1)]%nat; cbn iota; cbn [map]; cbv beta iota;
  repeat match goal with |- context [dots_full tiny_size (tiny_sim (nth ?z [0] 0) ?q) ?p ?y ?x] => change (dots_full tiny_size (tiny_sim (nth z [0] 0) q) p y x) with (score_at tiny_size [0] tiny_sim z y x p q) end;
  rewrite ?(fun q => proj1 (tiny_score [0] 0 q)), ?(fun q => proj1 (proj2 (tiny_score [0] 0 q))), ?(fun q => proj1 (proj2 (proj2 (tiny_score [0] 0 q)))), ?(fun q => proj2 (proj2 (proj2 (tiny_score [0] 0 q))));
  cbn [qw tiny_weak tiny_strong].
Ltac go2 := cbv beta iota; cbn [traverse nth map];
  repeat match goal with |- context [dots_full tiny_size (tiny_sim ?z ?q) ?p ?y ?x] => change (dots_full tiny_size (tiny_sim z q) p y x) with (score_at tiny_size [0] tiny_sim 0%nat y x p q) end;
  rewrite ?(fun q => proj1 (tiny_score [0] 0 q)), ?(fun q => proj1 (proj2 (tiny_score [0] 0 q))), ?(fun q => proj1 (proj2 (proj2 (tiny_score [0] 0 q)))), ?(fun q => proj2 (proj2 (proj2 (tiny_score [0] 0 q))));
  cbn [qw tiny_weak tiny_strong].
Lemma tiny_fit1 : fitter am tiny_size [0] [tiny_weak; tiny_strong] 1 tiny_sim [tiny_pat] = Ok (mkV (1/2) (-1/2) 0, [tiny_weak]).
Proof.
  go. rewrite cell_neg2 by (try exact H; try lia; lra). rewrite cell_pos1 by (try exact H; lra). cbn [fst]. unfold meanl, suml. cbn [fold_right List.length INR]. rewrite am2 by (try exact H; lra).
  go2. rewrite cell_pos1 by (try exact H; lra). cbn [snd nth_error]. rewrite <- tiny_report. reflexivity.
Qed.
Lemma tiny_fit2 : fitter am tiny_size [0] [tiny_weak; tiny_strong] 2 tiny_sim [tiny_pat] = Ok (mkV (1/2) (-1/2) 0, [tiny_strong]).
Proof.
  go. rewrite cell_neg2 by (try exact H; try lia; lra). rewrite cell_pos2 by (try exact H; lra). cbn [fst]. unfold meanl, suml. cbn [fold_right List.length INR]. rewrite am2 by (try exact H; lra).
  go2. rewrite cell_pos2 by (try exact H; lra). cbn [snd nth_error]. rewrite <- tiny_report. reflexivity.
Qed.
(** two patterns and the inverse of them: at the common best position the third pattern only has negative scores *)
Lemma tiny_fit3 : fitter am tiny_size [0] [tiny_strong; tiny_weak] 2 tiny_sim [tiny_pat; tiny_pat; tiny_inv] = Ok (mkV (1/2) (-1/2) 0, [tiny_strong; tiny_strong; tiny_strong]).
Proof.
  go. rewrite !(cell_neg2 am 2 (-(1)) (-(3/5))) by (try exact H; try lia; lra). rewrite !(cell_first am 1 (3/5)) by (try exact H; lra). cbn [fst]. unfold meanl, suml. cbn [fold_right List.length INR]. rewrite am2 by (try exact H; lra).
  go2. rewrite !(cell_neg2 am 2 (-(1)) (-(3/5))) by (try exact H; try lia; lra). rewrite !(cell_first am 1 (3/5)) by (try exact H; lra). cbn [snd nth_error]. rewrite <- tiny_report. reflexivity.
Qed.
End Run.
