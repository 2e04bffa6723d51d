(** Model of ebsdtorch/crystallography/scattering_factors/: Lobato-Van Dyck, Weickenmeier-Kohl and hybrid scattering factors.
    One element of the batched computations at a time; the batch structure (which element meets which voltage, which shapes
    raise) is in [scatter_factor_WK], [scatter_factor_hybrid] and [scatter_factor_LVD].  Exact reals; where the code can produce
    infinities or NaN the extended numbers [fl] of WigModel are used (signed zeros are not distinguished). *)
From Coq Require Import QArith Qreals Reals ZArith List Bool String Lia Lra.
From Verif Require Import Base SfTables.
From Verif Require Import WigModel.
Import ListNotations.
Local Open Scope R_scope.

Inductive sf_res (A : Type) := SfOk (a : A) | SfValueError | SfIndexError | SfRuntimeError.
Arguments SfOk {A}. Arguments SfValueError {A}. Arguments SfIndexError {A}. Arguments SfRuntimeError {A}.

(** division of extended numbers; a zero divisor counts as +0 *)
Definition fdiv (a b : fl) : fl :=
  match b with
  | F y => if Req_EM_T y 0 then (match a with F x => rinf x true | PInf => PInf | NInf => NInf | NaN => NaN end) else fmul a (F (/ y))
  | PInf | NInf => (match a with F _ => F 0 | _ => NaN end)
  | NaN => NaN
  end.

(** table[z - 1] for an integer z (scattering_factors_WK.py:694-695, LVD_TCB.py:187): negative positions count from the end, a
    position outside the table raises IndexError ([None]) *)
Definition table_row (table : list (list Q)) (z : Z) : option (list R) :=
  let n := Z.of_nat (List.length table) in
  let i := (z - 1)%Z in
  if ((i <? - n) || (n <=? i))%Z%bool then None
  else option_map (map Q2R) (nth_error table (Z.to_nat (if (i <? 0)%Z then (i + n)%Z else i))).

Definition rsum (l : list R) : R := fold_right Rplus 0 l.

(** ---------------- Lobato - Van Dyck (scattering_factors_LVD_TCB.py) ---------------- *)
(** lines 167-205 eval_LVD_fit for one row of the table (the same code in scattering_factors_Hybrid.py:392-430) *)
Definition lvd_term (g2 a b : R) : R := a * (2 + b * g2) / (1 + b * g2) ^ 2.
Definition eval_LVD_fit (row : list R) (s : R) : R :=
  let g := 2 * s in
  rsum (map (fun ab => lvd_term (g ^ 2) (fst ab) (snd ab)) (combine (firstn 5 row) (skipn 5 row))).

(** lines 208-222 integrand *)
Definition integrand (row : list R) (M s sx sy : R) : R :=
  let s1 := sqrt ((s / 2 + sx) ^ 2 + sy ^ 2) in
  let s2 := sqrt ((s / 2 - sx) ^ 2 + sy ^ 2) in
  let s_square := sx ^ 2 + sy ^ 2 - s ^ 2 / 4 in
  eval_LVD_fit row s1 * eval_LVD_fit row s2 * (1 - exp (- 2 * M * s_square)).

(** lines 225-280 simpson_composite, one row of y.  [None]: the x[-2] step of line 274 does not exist. *)
Definition rget (l : list R) (i : nat) : R := nth i l 0.
Definition step (x : list R) (i : nat) : R := rget x (S i) - rget x i.
(** lines 256-267: the panel on points 2k, 2k+1, 2k+2 *)
Definition panel (y x : list R) (k : nat) : R :=
  let he := step x (2 * k) in let ho := step x (2 * k + 1) in
  (he + ho) / 6 * (rget y (2 * k) * (2 - ho / he) + rget y (2 * k + 1) * ((he + ho) ^ 2 / (he * ho)) + rget y (2 * k + 2) * (2 - he / ho)).
(** lines 272-278: the correction for the last interval of an odd number of intervals *)
Definition last_interval (y x : list R) : R :=
  let n := List.length x in
  let h1 := step x (n - 2) in let h2 := step x (n - 3) in
  let alpha := (2 * h1 ^ 2 + 3 * h1 * h2) / (6 * (h2 + h1)) in
  let beta := (h1 ^ 2 + 3 * h1 * h2) / (6 * h2) in
  let eta := h1 ^ 3 / (6 * h2 * (h2 + h1)) in
  alpha * rget y (n - 1) + beta * rget y (n - 2) - eta * rget y (n - 3).
Definition simpson_composite (y x : list R) : sf_res R :=
  if negb (Nat.eqb (List.length y) (List.length x)) then SfValueError else
  let nh := (List.length x - 1)%nat in
  if Nat.odd nh then
    if Nat.ltb nh 2 then SfIndexError
    else SfOk (rsum (map (panel y x) (seq 0 ((nh - 1) / 2))) + last_interval y x)
  else SfOk (rsum (map (panel y x) (seq 0 (nh / 2)))).

(** lines 283-300 e_wavelength_eV_to_A (the same in WK.py:577-596) *)
Definition e_wavelength_eV_to_A (E : R) : R :=
  exp (2.5066892156586356 - 0.5 * ln E - 0.5 * ln (1 + E * 9.7847589066012e-07)).

(** torch.linspace(lo, hi, n) *)
Definition linspace (lo hi : R) (n : nat) : list R :=
  map (fun i => if Nat.eqb n 1 then lo else lo + INR i * ((hi - lo) / INR (n - 1))) (seq 0 n).
(** lines 399-435: the integration axis; [None]: the ValueError of line 435.  torch.logspace is base ** linspace; logspace_base
    enters math.log and torch.logspace, and cancels in exact arithmetic, so it is not a parameter. *)
Definition ewald_range (sampling : string) (intervals : nat) (lo hi eps : R) : option (list R) :=
  if String.eqb sampling "linspace" then
    Some (linspace lo hi (intervals + 1 + intervals mod 2))
  else if String.eqb sampling "logspace" then
    Some (lo :: map exp (linspace (ln (lo + eps)) (ln hi) (intervals - intervals mod 2)))
  else None.

(** lines 437-467: Simpson over both axes ([vals]); the grids always have an odd number of points, so [simpson_composite] returns *)
Definition sf_get (r : sf_res R) : R := match r with SfOk v => v | _ => 0 end.
Definition lvd_integral (row : list R) (axis : list R) (M s : R) : R :=
  sf_get (simpson_composite (map (fun sx => sf_get (simpson_composite (map (fun sy => integrand row M s sx sy) axis) axis)) axis) axis).

(** lines 364-376 *)
Definition lvd_M (thermal_sigma : R) : R := thermal_sigma ^ 2 * (8 * PI ^ 2).
Definition lvd_gamma (kV : R) : R := 1 + kV * 1.9569511835738734e-03.
Definition k0_wavelength (kV : R) : R := 2 * PI / e_wavelength_eV_to_A (1000 * kV).
(** line 379 *)
Definition lvd_dwf (thermal_sigma g : R) : R := exp (- lvd_M thermal_sigma * (g / 2) ^ 2).
(** lines 462-482, one entry: the voltage of gamma and the voltage of k0 are separate arguments *)
Definition lvd_entry (row axis : list R) (thermal_sigma g kV_gamma kV_k0 : R) : R * R :=
  let dwf := lvd_dwf thermal_sigma g in
  let gamma := lvd_gamma kV_gamma in
  let f_imag := 4 * lvd_integral row axis (lvd_M thermal_sigma) (g / 2) * dwf in
  (eval_LVD_fit row (g / 2) * dwf * gamma, 4 * PI * f_imag * (gamma ^ 2 / k0_wavelength kV_k0)).

(** rows of the table for a list of atomic numbers; [None]: IndexError *)
Fixpoint table_rows (table : list (list Q)) (zs : list Z) : option (list (list R)) :=
  match zs with
  | [] => Some []
  | z :: r => match table_row table z, table_rows table r with Some a, Some b => Some (a :: b) | _, _ => None end
  end.

(** the tensor of shape [N_V, N_Z, N_g] whose entry (v, z, g) is [f v z g] *)
Definition tensor3 {A} (nv nz ng : nat) (f : nat -> nat -> nat -> A) : list (list (list A)) :=
  map (fun v => map (fun z => map (fun g => f v z g) (seq 0 ng)) (seq 0 nz)) (seq 0 nv).

(** line 379 and WK.py:698-700: a tensor of Ns * Ng numbers viewed as [1, N_Z, N_g] *)
Definition view_ok (ns nz ng : nat) : bool := Nat.eqb (ns * ng) (nz * ng).

(** lines 303-482 scatter_factor_LVD.  inl: the real ITC tensor of shape [1, N_Z, N_g]; inr: the complex one.
    [k0] (line 376) keeps shape [N_V], so gamma**2 / k0 has shape [N_V, 1, N_V] and its last axis is matched with g (line 476): the two
    parts can be stacked only if N_V = 1 or N_g = N_V, and in the latter case entry (v, z, g) uses k0 of voltage g. *)
Definition scatter_factor_LVD (gs : list R) (zs : list Z) (sigmas kVs : list R) (sampling : string) (intervals : nat) (lo hi eps : R)
    (return_type : string) : sf_res (list (list (list R)) + list (list (list (R * R)))) :=
  let nv := List.length kVs in let nz := List.length zs in let ng := List.length gs in
  if negb (view_ok (List.length sigmas) nz ng) then SfRuntimeError else
  if String.eqb return_type "ITC" then
    match table_rows fit_LVD zs with
    | None => SfIndexError
    | Some rows => SfOk (inl (tensor3 1 nz ng (fun _ z g => eval_LVD_fit (nth z rows []) (rget gs g / 2))))
    end
  else match ewald_range sampling intervals lo hi eps with
  | None => SfValueError
  | Some axis =>
    match table_rows fit_LVD zs with
    | None => SfIndexError
    | Some rows =>
      if Nat.eqb nv 1 then
        SfOk (inr (tensor3 nv nz ng (fun v z g => lvd_entry (nth z rows []) axis (rget sigmas z) (rget gs g) (rget kVs v) (rget kVs v))))
      else if Nat.eqb ng nv then
        SfOk (inr (tensor3 nv nz ng (fun v z g => lvd_entry (nth z rows []) axis (rget sigmas z) (rget gs g) (rget kVs v) (rget kVs g))))
      else SfRuntimeError
    end
  end.

(** ---------------- Weickenmeier - Kohl (scattering_factors_WK.py) ---------------- *)
(** lines 267-273 evaluate_polynomial (coefficients from the constant term up) *)
Definition evaluate_polynomial (coeffs : list Q) (x : R) : R :=
  match rev coeffs with
  | [] => 0
  | c :: rest => fold_left (fun result ci => result * x + Q2R ci) rest (Q2R c)
  end.

(** lines 276-355 exp1 *)
Definition exp1_Y : Q := 0.66373538970947265625.
Definition exp1_P1 : list Q := [
  0.0865197248079397976498; 0.0320913665303559189999; -0.245088216639761496153; -0.0368031736257943745142;
  -0.00399167106081113256961; -0.000111507792921197858394]%Q.
Definition exp1_Q1 : list Q := [
  1.0; 0.37091387659397013215; 0.056770677104207528384; 0.00427347600017103698101; 0.000131049900798434683324;
  -0.528611029520217142048e-6]%Q.
Definition exp1_P2 : list Q := [
  -0.121013190657725568138e-18; -0.999999999999998811143; -43.3058660811817946037; -724.581482791462469795; -6046.8250112711035463;
  -27182.6254466733970467; -66598.2652345418633509; -86273.1567711649528784; -54844.4587226402067411; -14751.4895786128450662;
  -1185.45720315201027667]%Q.
Definition exp1_Q2 : list Q := [
  1.0; 45.3058660811801465927; 809.193214954550328455; 7417.37624454689546708; 38129.5594484818471461; 113057.05869159631492;
  192104.047790227984431; 180329.498380501819718; 86722.3403467334749201; 18455.4124737722049515; 1229.20784182403048905;
  -0.776491285282330997549]%Q.
Definition exp1_range1 (x : R) : R :=
  evaluate_polynomial exp1_P1 x / evaluate_polynomial exp1_Q1 x + x - ln x - Q2R exp1_Y.
Definition exp1_range2 (x : R) : R :=
  let recip := 1 / x in
  (1 + evaluate_polynomial exp1_P2 recip / evaluate_polynomial exp1_Q2 recip) * exp (- x) * recip.
Definition exp1 (x : R) : fl :=
  if Req_EM_T x 0 then PInf else if Rlt_dec x 0 then NaN
  else if Rle_dec x 1 then F (exp1_range1 x) else F (exp1_range2 x).

(** lines 358-508 expi *)
Definition expi_P1 : list Q := [
  2.98677224343598593013; 0.356343618769377415068; 0.780836076283730801839; 0.114670926327032002811; 0.0499434773576515260534;
  0.00726224593341228159561; 0.00115478237227804306827; 0.000116419523609765200999; 0.798296365679269702435e-5; 0.2777056254402008721e-6]%Q.
Definition expi_Q1 : list Q := [
  1.0; -1.17090412365413911947; 0.62215109846016746276; -0.195114782069495403315; 0.0391523431392967238166; -0.00504800158663705747345;
  0.000389034007436065401822; -0.138972589601781706598e-4]%Q.
Definition expi_r : Q := 0.372507410781366634461991866580119133535689497771654051555657435242200120636201854384926049951548942392%Q.
Definition expi_Y2 : Q := 1.158985137939453125%Q.
Definition expi_P2 : list Q := [
  0.00139324086199402804173; -0.0349921221823888744966; -0.0264095520754134848538; -0.00761224003005476438412; -0.00247496209592143627977;
  -0.000374885917942100256775; -0.554086272024881826253e-4; -0.396487648924804510056e-5]%Q.
Definition expi_Q2 : list Q := [
  1.0; 0.744625566823272107711; 0.329061095011767059236; 0.100128624977313872323; 0.0223851099128506347278; 0.00365334190742316650106;
  0.000402453408512476836472; 0.263649630720255691787e-4]%Q.
Definition expi_Y3 : Q := 1.086973190307617188%Q.
Definition expi_P3 : list Q := [
  -0.00893891094356945667451; -0.0484607730127134045806; -0.0652810444222236895772; -0.0478447572647309671455; -0.0226059218923777094596;
  -0.00720603636917482065907; -0.00155941947035972031334; -0.000209750022660200888349; -0.138652200349182596186e-4]%Q.
Definition expi_Q3 : list Q := [
  1.0; 1.97017214039061194971; 1.86232465043073157508; 1.09601437090337519977; 0.438873285773088870812; 0.122537731979686102756;
  0.0233458478275769288159; 0.00278170769163303669021; 0.000159150281166108755531]%Q.
Definition expi_Y4 : Q := 1.013065338134765625%Q.
Definition expi_P4 : list Q := [
  -0.0130653381347656243849; 0.19029710559486576682; 94.7365094537197236011; -2516.35323679844256203; 18932.0850014925993025;
  -38703.1431362056714134]%Q.
Definition expi_Q4 : list Q := [
  1.0; 61.9733592849439884145; -2354.56211323420194283; 22329.1459489893079041; -70126.245140396567133; 54738.2833147775537106;
  8297.16296356518409347]%Q.
(** lines 372-415; both branches of torch.where; log1p(t / r) is ln (1 + t / r) *)
Definition expi_range1 (x : R) : R :=
  let t := x / 3 - 1 in
  let t' := x - Q2R expi_r in
  let range1_result := evaluate_polynomial expi_P1 t / evaluate_polynomial expi_Q1 t * t' in
  if Rlt_dec (Rabs t') 0.1 then range1_result + ln (1 + t' / Q2R expi_r) else range1_result + ln (x / Q2R expi_r).
(** lines 417-446 *)
Definition expi_range2 (x : R) : R :=
  let t := x / 2 - 4 in
  (Q2R expi_Y2 + evaluate_polynomial expi_P2 t / evaluate_polynomial expi_Q2 t) * exp x / x + x.
(** lines 448-479 *)
Definition expi_range3 (x : R) : R :=
  let t := x / 5 - 3 in
  (Q2R expi_Y3 + evaluate_polynomial expi_P3 t / evaluate_polynomial expi_Q3 t) * exp x / x + x.
(** lines 481-506 *)
Definition expi_range4 (x : R) : R :=
  let t := 1 / x in
  (Q2R expi_Y4 + evaluate_polynomial expi_P4 t / evaluate_polynomial expi_Q4 t) * (exp x / x) + x.
Definition expi (x : R) : fl :=
  if Req_EM_T x 0 then NInf
  else if Rlt_dec x 0 then fneg (exp1 (- x))
  else if Rle_dec x 6 then F (expi_range1 x)
  else if Rle_dec x 10 then F (expi_range2 x)
  else if Rle_dec x 20 then F (expi_range3 x)
  else F (expi_range4 x).

(** lines 511-547 RIH2_torch, for X > 0 (it is only selected for X > 20).  [Int_part] is floor. *)
Definition rih2_table : list Q := [
  1.000000; 1.005051; 1.010206; 1.015472; 1.020852; 1.026355; 1.031985; 1.037751; 1.043662; 1.049726; 1.055956; 1.062364; 1.068965;
  1.075780; 1.082830; 1.090140; 1.097737; 1.105647; 1.113894; 1.122497; 1.131470]%Q.
Definition rih2_at (i : nat) : R := Q2R (nth i rih2_table 0%Q).
Definition rih2_idx (X : R) : nat :=
  Z.to_nat (Z.min (Z.max (Int_part (200 / X)) 0) (Z.of_nat (List.length rih2_table) - 2)).
Definition RIH2_torch (X : R) : R :=
  let idx := rih2_idx X in
  rih2_at idx + 200 * (rih2_at (S idx) - rih2_at idx) * (1 / X - 0.5e-3 * INR idx).

(** lines 550-574 RIH1_torch_where *)
Definition RIH1_torch_where (X1 X2 X3 : R) : fl :=
  if Rle_dec X2 20 then
    if Rle_dec X3 20 then fmul (F (exp (- X1))) (fsub (expi X2) (expi X3))
    else fsub (fmul (F (exp (- X1))) (expi X2)) (F (exp (X3 - X1) * RIH2_torch X3 / X3))
  else
    if Rle_dec X3 20 then fsub (F (exp (X2 - X1) * RIH2_torch X2 / X2)) (fmul (F (exp (- X1))) (expi X3))
    else F (exp (X2 - X1) * RIH2_torch X2 / X2 - exp (X3 - X1) * RIH2_torch X3 / X3).

(** lines 702-724: the real part, one of the four terms; at S = 0 the first branch is taken *)
Definition wk_real_term (S a b : R) : R :=
  let argu := b * S ^ 2 in
  if Rlt_dec argu 0.1 then a * b * (1 - 0.5 * argu)
  else if Rle_dec argu 20 then a * (1 - exp (- argu)) / S ^ 2
  else a / S ^ 2.
Definition wk_real (A B : list R) (S : R) : R := rsum (map (fun ab => wk_real_term S (fst ab) (snd ab)) (combine A B)).

(** lines 697-700 (thermal factor; also Hybrid.py:867-869) *)
Definition wk_dwf (thermal_sigma G : R) : R := exp (- 0.5 * thermal_sigma ^ 2 * G ^ 2).
(** lines 726-729 *)
Definition k0_wk (kV : R) : R := 0.5068 * sqrt (1022 * kV + kV * kV).
(** line 920 and Hybrid.py:1054 *)
Definition wk_gamma (kV : R) : R := (kV + 511) / 511.

(** lines 735-789 core contribution, for atomic number z >= 1 and voltage kV > 0 (then no divisor is zero and every logarithm has a
    positive argument) *)
Definition core_R (z : R) : R := 0.885 * 0.5289 / Rpower z (1 / 3).
Definition core_TA (k0 z : R) : R := 1 / (k0 * core_R z).
Definition core_omega (k0 z G : R) : R := 2 * (G / (2 * k0)) / core_TA k0 z.
Definition core_theta_e (z kV : R) : R := 6.0e-3 * z / (2 * kV) * (2 * kV + 1022) / (kV + 1022).
Definition core_kappa (k0 z kV : R) : R := core_theta_e z kV / core_TA k0 z.
Definition core_X1 (om ka : R) : R :=
  om / ((1 + om * om) * sqrt (om * om + 4 * (ka * ka))) * ln ((om + sqrt (om * om + 4 * (ka * ka))) / (2 * ka)).
Definition core_X2 (om ka : R) : R :=
  let root := sqrt ((1 + om * om) * (1 + om * om) + 4 * (ka * ka) * (om * om)) in
  1 / root * ln ((1 + 2 * (ka * ka) + om * om + root) / (2 * ka * sqrt (1 + ka * ka))).
Definition core_X3 (om ka : R) : R :=
  if Rlt_dec 1e-2 om then
    1 / (om * sqrt (om * om + 4 * (1 + ka * ka))) * ln ((om + sqrt (om * om + 4 * (1 + ka * ka))) / (2 * sqrt (1 + ka * ka)))
  else 1 / (4 * (1 + ka * ka)).
Definition core_HI (k0 z kV G : R) : R :=
  let om := core_omega k0 z G in let ka := core_kappa k0 z kV in
  2 * z / (core_TA k0 z * core_TA k0 z) * (- core_X1 om ka + core_X2 om ka - core_X3 om ka).
Definition Fcore (k0 z kV G : R) : R := 4 / (0.5289 * 0.5289) * 2 * PI / (k0 * k0) * core_HI k0 z kV G.

(** lines 792-806: the ten pairs i <= j of the four gaussians *)
Definition pair_idx : list (nat * nat) := [(0, 0); (0, 1); (0, 2); (0, 3); (1, 1); (1, 2); (1, 3); (2, 2); (2, 3); (3, 3)]%nat.
Definition scaleA (a : R) : R := a * (4 * PI) ^ 2.
Definition scaleB (b : R) : R := b / (4 * PI) ^ 2.
(** lines 808-809, 823-834: g = 0 *)
Definition I1_0 (bi bj : R) : fl :=
  fmul (F PI) (fadd (fmul (F bi) (flog (fdiv (F (bi + bj)) (F bi)))) (fmul (F bj) (flog (fdiv (F (bi + bj)) (F bj))))).
Definition I2_0 (M bi bj : R) : fl :=
  fmul (F PI) (fadd (fadd
    (fmul (F (bi + 2 * M)) (flog (fdiv (F (bi + bj + 2 * M)) (F (bi + 2 * M)))))
    (fmul (F bj) (flog (fdiv (F (bi + bj + 2 * M)) (F (bj + 2 * M))))))
    (fmul (F (2 * M)) (flog (fdiv (F (2 * M)) (F (bj + 2 * M)))))).
(** lines 840-860: g <> 0 *)
Definition I1_g (G2 bi bj : R) : fl :=
  fmul (fdiv (F PI) (F G2)) (fadd (fadd (fsub (fadd (fadd
    (F (2 * 0.57721566490153286060651209008240243))
    (flog (F (bi * G2))))
    (flog (F (bj * G2))))
    (fmul (F 2) (expi (- bi * bj * G2 / (bi + bj)))))
    (RIH1_torch_where (bi * G2) (bi * bi * G2 / (bi + bj)) (bi * G2)))
    (RIH1_torch_where (bj * G2) (bj * bj * G2 / (bi + bj)) (bj * G2))).
(** lines 862-908 *)
Definition I2_g (G2 M bi bj : R) : fl :=
  let biM := bi + M in let bjM := bj + M in let bijM := bi + bj + 2 * M in
  fmul (fdiv (F PI) (F G2)) (fadd (fadd (fadd (fadd
    (fmul (F 2) (fsub (fsub (fadd (expi (- M * biM * G2 / (bi + 2 * M))) (expi (- M * bjM * G2 / (bj + 2 * M))))
                            (expi (- biM * bjM * G2 / bijM))) (expi (- 0.5 * M * G2))))
    (RIH1_torch_where (M * G2) (0.5 * M * G2) (M * M * G2 / (bi + 2 * M))))
    (RIH1_torch_where (M * G2) (0.5 * M * G2) (M * M * G2 / (bj + 2 * M))))
    (RIH1_torch_where (biM * G2) (biM * biM * G2 / bijM) (biM * biM * G2 / (bi + 2 * M))))
    (RIH1_torch_where (bjM * G2) (bjM * bjM * G2 / bijM) (bjM * bjM * G2 / (bj + 2 * M)))).
(** lines 808-819, 836-838, 910-912: one of the ten pairs *)
Definition phonon_pair (A B : list R) (thermal_sigma G : R) (ij : nat * nat) : fl :=
  let M := 0.5 * thermal_sigma ^ 2 in
  let ai := scaleA (rget A (fst ij)) in let aj := scaleA (rget A (snd ij)) in
  let bi := scaleB (rget B (fst ij)) in let bj := scaleB (rget B (snd ij)) in
  let mult := if Nat.eqb (fst ij) (snd ij) then 1 else 2 in
  let G2 := G ^ 2 in
  let exp_DW := exp (- M * G2) in
  if Req_EM_T G 0 then fmul (F (mult * ai * aj)) (fsub (fmul (F exp_DW) (I1_0 bi bj)) (I2_0 M bi bj))
  else fmul (F (mult * ai * aj)) (fsub (fmul (F exp_DW) (I1_g G2 bi bj)) (I2_g G2 M bi bj)).
(** line 915: the sum over the pairs *)
Definition fsum (l : list fl) : fl := fold_left fadd l (F 0).
Definition Fphon (A B : list R) (thermal_sigma G : R) : fl := fsum (map (phonon_pair A B thermal_sigma G) pair_idx).

(** lines 919-932: one EMsoft entry; [z] is the atomic number as a real *)
Definition wk_imag (A B : list R) (z thermal_sigma G kV k0 : R) (core phonon : bool) : fl :=
  let fc := if core then Fcore k0 z kV G else 0 in
  let fp := if phonon then Fphon A B thermal_sigma G else F 0 in
  fdiv (fmul (fadd (F (fc * wk_dwf thermal_sigma G)) fp) (F (wk_gamma kV ^ 2))) (F (4 * PI * k0)).
Definition wk_entry (A B : list R) (z thermal_sigma g kV : R) (core phonon : bool) : R * fl :=
  (wk_real A B (g / (4 * PI)) * wk_dwf thermal_sigma g * wk_gamma kV,
   wk_imag A B z thermal_sigma g kV (k0_wk kV) core phonon).

(** lines 598-943 scatter_factor_WK.  inl: real tensor [1, N_Z, N_g]; inr: complex tensor [N_V, N_Z, N_g].  The sanity check on tensor
    ranks (lines 651-656) is not modelled: all arguments are flat lists. *)
Definition scatter_factor_WK (gs : list R) (zs : list Z) (sigmas kVs : list R) (core phonon : bool) (return_type : string) :
    sf_res (list (list (list R)) + list (list (list (R * fl)))) :=
  let nv := List.length kVs in let nz := List.length zs in let ng := List.length gs in
  let itc := String.eqb return_type "ITC" in
  match table_rows wk_A_param zs, table_rows wk_B_param zs with
  | Some As, Some Bs =>
    if negb (view_ok (List.length sigmas) nz ng) then SfRuntimeError else
    if String.eqb return_type "EMsoft" then
      SfOk (inr (tensor3 nv nz ng (fun v z g => wk_entry (nth z As []) (nth z Bs []) (IZR (nth z zs 0%Z)) (rget sigmas z) (rget gs g) (rget kVs v) core phonon)))
    else SfOk (inl (tensor3 1 nz ng (fun _ z g => wk_real (nth z As []) (nth z Bs []) (if itc then rget gs g / 2 else rget gs g / (4 * PI)))))
  | _, _ => SfIndexError
  end.

(** ---------------- hybrid (scattering_factors_Hybrid.py) ---------------- *)
(** line 1067 torch.clamp(f_imag, min=0.0): NaN stays NaN *)
Definition clamp0 (a : fl) : fl := match a with F x => F (Rmax x 0) | NInf => F 0 | PInf => PInf | NaN => NaN end.
(** lines 842-1069: one EMsoft entry: Lobato-Van Dyck real part at s = g / 2, everything else at G = 2 pi g *)
Definition hybrid_entry (row A B : list R) (z thermal_sigma g kV : R) (core phonon : bool) : R * fl :=
  let G := g * 2 * PI in
  (eval_LVD_fit row (g / 2) * wk_dwf thermal_sigma G * wk_gamma kV,
   clamp0 (wk_imag A B z thermal_sigma G kV (k0_wavelength kV) core phonon)).
(** lines 762-1082 scatter_factor_hybrid *)
Definition scatter_factor_hybrid (gs : list R) (zs : list Z) (sigmas kVs : list R) (core phonon : bool) (return_type : string) :
    sf_res (list (list (list R)) + list (list (list (R * fl)))) :=
  let nv := List.length kVs in let nz := List.length zs in let ng := List.length gs in
  match table_rows fit_LVD zs with
  | None => SfIndexError
  | Some rows =>
    match table_rows wk_A_param zs, table_rows wk_B_param zs with
    | Some As, Some Bs =>
      if negb (view_ok (List.length sigmas) nz ng) then SfRuntimeError else
      if String.eqb return_type "EMsoft" then
        SfOk (inr (tensor3 nv nz ng (fun v z g => hybrid_entry (nth z rows []) (nth z As []) (nth z Bs []) (IZR (nth z zs 0%Z)) (rget sigmas z) (rget gs g) (rget kVs v) core phonon)))
      else if String.eqb return_type "ITC" then
        SfOk (inl (tensor3 1 nz ng (fun _ z g => eval_LVD_fit (nth z rows []) (rget gs g / 2))))
      else SfValueError
    | _, _ => SfIndexError
    end
  end.

(** ---------------- the call from the structure factor (diffraction.py:273-297) ---------------- *)
(** lengths of g in 1/nm and Debye-Waller factors in nm^2 are converted; both models get the same converted numbers *)
Definition g_angstrom_twopi (g_nm : R) : R := 0.1 * 2 * PI * g_nm.
Definition u_angstrom_twopi (dw : R) : R := 10 * sqrt (dw / (8 * PI ^ 2)).
