(** The certificates for the four fits (the coefficients after the constant term). Nothing in this file models repository code. *)
From Coq Require Import QArith ZArith List Bool.
From Verif Require Import SfPoly SfFix HoPoly.
Import ListNotations.
Local Open Scope Q_scope.
Definition C_f32 : list Q := [(-1999997736154711) # 4000000000000000; (-1250758253007451) # 50000000000000000; (-38120131548551729) # 10000000000000000000; (-6053094165321081) # 5000000000000000000; 6166161999144427 # 12500000000000000000; (-3504469276322531) # 5000000000000000000; 15489887461794539 # 50000000000000000000; (-73023474963298843) # 1000000000000000000000].
Definition z_f32 : list Z := Eval vm_compute in fst (fx kfix (p_G C_f32)).
Definition e_f32 : Z := Eval vm_compute in snd (fx kfix (p_G C_f32)).
Definition b_f32 : Q := 35 # 1000000.
Definition c_f32 : Q := 18 # 10000000.
Lemma ok_f32 : fit_check C_f32 z_f32 e_f32 12 b_f32 c_f32 = true.
Proof. vm_cast_no_check (eq_refl true). Qed.
Definition C_f64 : list Q := [(-9999999424802657) # 20000000000000000; (-1000047274641761) # 40000000000000000; (-19572104910260519) # 5000000000000000000; (-89320268104539483) # 100000000000000000000; 6236204857216739 # 200000000000000000000; (-43961032788396477) # 100000000000000000000; 39657471727506439 # 100000000000000000000; (-6594986262646733) # 25000000000000000000; 91185355979587159 # 1000000000000000000000; (-14875867805692529) # 1000000000000000000000].
Definition z_f64 : list Z := Eval vm_compute in fst (fx kfix (p_G C_f64)).
Definition e_f64 : Z := Eval vm_compute in snd (fx kfix (p_G C_f64)).
Definition b_f64 : Q := 23 # 10000000.
Definition c_f64 : Q := 90 # 1000000000.
Lemma ok_f64 : fit_check C_f64 z_f64 e_f64 12 b_f64 c_f64 = true.
Proof. vm_cast_no_check (eq_refl true). Qed.
Definition C_kik : list Q := [(-5000000002194847) # 10000000000000000; (-12499996063796563) # 500000000000000000; (-1964350772390687) # 500000000000000000; (-4076350767725219) # 5000000000000000000; (-62796888316241) # 312500000000000000; (-599496694017939) # 25000000000000000000; (-8202868926605841) # 100000000000000000000; 3112178760522523 # 25000000000000000000; (-1749114214822577) # 10000000000000000000; 851740967070027 # 5000000000000000000; (-3015516251029207) # 25000000000000000000; 29859852934330413 # 500000000000000000000; (-1980756723965647) # 100000000000000000000; 1976857342106437 # 500000000000000000000; (-4569375179964943) # 12500000000000000000000].
Definition z_kik : list Z := Eval vm_compute in fst (fx kfix (p_G C_kik)).
Definition e_kik : Z := Eval vm_compute in snd (fx kfix (p_G C_kik)).
Definition b_kik : Q := 90 # 10000000000.
Definition c_kik : Q := 70 # 100000000000.
Lemma ok_kik : fit_check C_kik z_kik e_kik 12 b_kik c_kik = true.
Proof. vm_cast_no_check (eq_refl true). Qed.
Definition C_em : list Q := [(-24999999999993433) # 50000000000000000; (-5000000000126411) # 200000000000000000; (-3928571496460683) # 1000000000000000000; (-255145814908211) # 312500000000000000; (-9705948221630823) # 50000000000000000000; (-4985822229871769) # 100000000000000000000; (-14164962366386031) # 1000000000000000000000; (-19000248160936107) # 10000000000000000000000; (-286092274949253) # 50000000000000000000; 3886074960329389 # 500000000000000000000; (-210696690581941) # 20000000000000000000; 9528014229335313 # 1000000000000000000000; (-45282311010121) # 8000000000000000000; 6422450846382063 # 5000000000000000000000; 11255185726258763 # 10000000000000000000000; (-2766878283991291) # 2000000000000000000000; 7513691751164847 # 10000000000000000000000; (-2401996891720091) # 10000000000000000000000; 1096721754366597 # 25000000000000000000000; (-561215239899451) # 156250000000000000000000].
Definition z_em : list Z := Eval vm_compute in fst (fx kfix (p_G C_em)).
Definition e_em : Z := Eval vm_compute in snd (fx kfix (p_G C_em)).
Definition b_em : Q := 13 # 100000000000.
Definition c_em : Q := 44 # 100000000000000.
Lemma ok_em : fit_check C_em z_em e_em 14 b_em c_em = true.
Proof. vm_cast_no_check (eq_refl true). Qed.
