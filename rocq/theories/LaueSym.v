(** Exact arithmetic in Z[sqrt 2, sqrt 3] for the Laue operator tables (proof device, models no code).
    A symbolic number (a,b,c,d) stands for (a + b sqrt2 + c sqrt3 + d sqrt6); tables are stored doubled. *)
From Verif Require Import Base BaseFacts QuatModel QuatSpec QuatProofs LaueModel LaueSpec.

Record sn := SN { c1 : Z; c2 : Z; c3 : Z; c6 : Z }.
Definition ev (x : sn) : R := IZR (c1 x) + IZR (c2 x) * sqrt 2 + IZR (c3 x) * sqrt 3 + IZR (c6 x) * (sqrt 2 * sqrt 3).
Definition sadd (x y : sn) : sn := SN (c1 x + c1 y) (c2 x + c2 y) (c3 x + c3 y) (c6 x + c6 y).
Definition sopp (x : sn) : sn := SN (- c1 x) (- c2 x) (- c3 x) (- c6 x).
Definition ssub (x y : sn) : sn := sadd x (sopp y).
Definition smul (x y : sn) : sn := SN
  (c1 x * c1 y + 2 * (c2 x * c2 y) + 3 * (c3 x * c3 y) + 6 * (c6 x * c6 y))
  (c1 x * c2 y + c2 x * c1 y + 3 * (c3 x * c6 y) + 3 * (c6 x * c3 y))
  (c1 x * c3 y + c3 x * c1 y + 2 * (c2 x * c6 y) + 2 * (c6 x * c2 y))
  (c1 x * c6 y + c6 x * c1 y + c2 x * c3 y + c3 x * c2 y).
Definition seqb (x y : sn) : bool := ((c1 x =? c1 y) && (c2 x =? c2 y) && (c3 x =? c3 y) && (c6 x =? c6 y))%Z.
Definition sint (k : Z) : sn := SN k 0 0 0.

Lemma sqrt2_sq : sqrt 2 * sqrt 2 = 2. Proof. apply sqrt_sqrt; lra. Qed.
Lemma sqrt3_sq : sqrt 3 * sqrt 3 = 3. Proof. apply sqrt_sqrt; lra. Qed.
Lemma ev_add x y : ev (sadd x y) = ev x + ev y.
Proof. unfold ev, sadd; simpl; rewrite !plus_IZR; ring. Qed.
Lemma ev_opp x : ev (sopp x) = - ev x.
Proof. unfold ev, sopp; simpl; rewrite !opp_IZR; ring. Qed.
Lemma ev_sub x y : ev (ssub x y) = ev x - ev y.
Proof. unfold ssub; rewrite ev_add, ev_opp; ring. Qed.
Lemma ev_mul x y : ev (smul x y) = ev x * ev y.
Proof.
  unfold ev, smul; cbn [c1 c2 c3 c6]. rewrite !plus_IZR, !mult_IZR, ?plus_IZR, ?mult_IZR.
  pose proof sqrt2_sq as H2. pose proof sqrt3_sq as H3.
  set (s2 := sqrt 2) in *. set (s3 := sqrt 3) in *. clearbody s2 s3.
  generalize (IZR (c1 x)) (IZR (c2 x)) (IZR (c3 x)) (IZR (c6 x)) (IZR (c1 y)) (IZR (c2 y)) (IZR (c3 y)) (IZR (c6 y)).
  intros a b c d e f g h. symmetry.
  transitivity (a*e + b*f*(s2*s2) + c*g*(s3*s3) + d*h*((s2*s2)*(s3*s3)) + (a*f+b*e)*s2 + (c*h+d*g)*(s3*s3)*s2
    + (a*g+c*e)*s3 + (b*h+d*f)*(s2*s2)*s3 + (a*h+d*e+b*g+c*f)*(s2*s3)); [ring|].
  rewrite H2, H3. ring.
Qed.
Lemma seqb_ev x y : seqb x y = true -> ev x = ev y.
Proof.
  unfold seqb; rewrite !andb_true_iff, !Z.eqb_eq. intros [[[H1 H2] H3] H4]. unfold ev. rewrite H1, H2, H3, H4. reflexivity.
Qed.
Lemma ev_int k : ev (sint k) = IZR k.
Proof. unfold ev, sint; simpl. ring. Qed.

(** doubled symbolic quaternions *)
Record squat := SQ { sw : sn; sx : sn; sy : sn; sz : sn }.
Definition evq (q : squat) : quat := mkQ (ev (sw q) / 2) (ev (sx q) / 2) (ev (sy q) / 2) (ev (sz q) / 2).
(** product of doubled quaternions = 4 x product *)
Definition sprod (a b : squat) : squat := SQ
  (ssub (ssub (ssub (smul (sw a) (sw b)) (smul (sx a) (sx b))) (smul (sy a) (sy b))) (smul (sz a) (sz b)))
  (ssub (sadd (sadd (smul (sw a) (sx b)) (smul (sx a) (sw b))) (smul (sy a) (sz b))) (smul (sz a) (sy b)))
  (sadd (sadd (ssub (smul (sw a) (sy b)) (smul (sx a) (sz b))) (smul (sy a) (sw b))) (smul (sz a) (sx b)))
  (sadd (ssub (sadd (smul (sw a) (sz b)) (smul (sx a) (sy b))) (smul (sy a) (sx b))) (smul (sz a) (sw b))).
Definition sscale (k : Z) (a : squat) : squat :=
  SQ (smul (sint k) (sw a)) (smul (sint k) (sx a)) (smul (sint k) (sy a)) (smul (sint k) (sz a)).
Definition sconj (a : squat) : squat := SQ (sw a) (sopp (sx a)) (sopp (sy a)) (sopp (sz a)).
Definition sqeqb (a b : squat) : bool := seqb (sw a) (sw b) && seqb (sx a) (sx b) && seqb (sy a) (sy b) && seqb (sz a) (sz b).
Definition sdot (a b : squat) : sn :=
  sadd (sadd (sadd (smul (sw a) (sw b)) (smul (sx a) (sx b))) (smul (sy a) (sy b))) (smul (sz a) (sz b)).

Definition z0 := sint 0. Definition z1 := sint 2. Definition zh := sint 1. Definition zmh := sint (-1).
Definition zr2 := SN 0 1 0 0. Definition zmr2 := SN 0 (-1) 0 0.
Definition zr3 := SN 0 0 1 0. Definition zmr3 := SN 0 0 (-1) 0.

Definition S_C1 : list squat := [SQ z1 z0 z0 z0].
Definition S_C2 : list squat := [SQ z1 z0 z0 z0;
  SQ z0 z0 z0 z1].
Definition S_D2 : list squat := [SQ z1 z0 z0 z0;
  SQ z0 z0 z0 z1;
  SQ z0 z1 z0 z0;
  SQ z0 z0 z1 z0].
Definition S_C4 : list squat := [SQ z1 z0 z0 z0;
  SQ z0 z0 z0 z1;
  SQ zr2 z0 z0 zr2;
  SQ zr2 z0 z0 zmr2].
Definition S_D4 : list squat := [SQ z1 z0 z0 z0;
  SQ z0 z0 z0 z1;
  SQ z0 z1 z0 z0;
  SQ z0 z0 z1 z0;
  SQ zr2 z0 z0 zr2;
  SQ zr2 z0 z0 zmr2;
  SQ z0 zr2 zr2 z0;
  SQ z0 zmr2 zr2 z0].
Definition S_C3 : list squat := [SQ z1 z0 z0 z0;
  SQ zh z0 z0 zr3;
  SQ zh z0 z0 zmr3].
Definition S_D3 : list squat := [SQ z1 z0 z0 z0;
  SQ zh z0 z0 zr3;
  SQ zh z0 z0 zmr3;
  SQ z0 z1 z0 z0;
  SQ z0 zmh zr3 z0;
  SQ z0 zh zr3 z0].
Definition S_C6 : list squat := [SQ z1 z0 z0 z0;
  SQ zh z0 z0 zr3;
  SQ zh z0 z0 zmr3;
  SQ z0 z0 z0 z1;
  SQ zr3 z0 z0 zh;
  SQ zr3 z0 z0 zmh].
Definition S_D6 : list squat := [SQ z1 z0 z0 z0;
  SQ zh z0 z0 zr3;
  SQ zh z0 z0 zmr3;
  SQ z0 z0 z0 z1;
  SQ zr3 z0 z0 zh;
  SQ zr3 z0 z0 zmh;
  SQ z0 z1 z0 z0;
  SQ z0 zmh zr3 z0;
  SQ z0 zh zr3 z0;
  SQ z0 zr3 zh z0;
  SQ z0 zmr3 zh z0;
  SQ z0 z0 z1 z0].
Definition S_T : list squat := [SQ z1 z0 z0 z0;
  SQ z0 z0 z0 z1;
  SQ z0 z1 z0 z0;
  SQ z0 z0 z1 z0;
  SQ zh zh zmh zh;
  SQ zh zh zh zmh;
  SQ zh zh zmh zmh;
  SQ zh zmh zmh zmh;
  SQ zh zmh zh zh;
  SQ zh zmh zh zmh;
  SQ zh zmh zmh zh;
  SQ zh zh zh zh].
Definition S_O : list squat := [SQ z1 z0 z0 z0;
  SQ z0 z0 z0 z1;
  SQ z0 z1 z0 z0;
  SQ z0 z0 z1 z0;
  SQ zr2 z0 z0 zr2;
  SQ zr2 z0 z0 zmr2;
  SQ z0 zr2 zr2 z0;
  SQ z0 zmr2 zr2 z0;
  SQ zh zh zmh zh;
  SQ zh zh zh zmh;
  SQ zh zh zmh zmh;
  SQ zh zmh zmh zmh;
  SQ zh zmh zh zh;
  SQ zh zmh zh zmh;
  SQ zh zmh zmh zh;
  SQ zh zh zh zh;
  SQ zr2 zr2 z0 z0;
  SQ zr2 zmr2 z0 z0;
  SQ zr2 z0 zr2 z0;
  SQ zr2 z0 zmr2 z0;
  SQ z0 zr2 z0 zr2;
  SQ z0 zmr2 z0 zr2;
  SQ z0 z0 zr2 zr2;
  SQ z0 z0 zmr2 zr2].
Definition S_GROUPS := [S_C1; S_C2; S_D2; S_C4; S_D4; S_C3; S_D3; S_C6; S_D6; S_T; S_O].
