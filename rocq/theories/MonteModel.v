(** Model of ebsdtorch/simulation/monte_carlo.py and of ebsdtorch/crystallography/ebsd_mc.py (OpenCL kernel text and post-processing).
    Exact reals; random draws are arguments. *)
From Verif Require Import Base QuatModel SphereModel MpModel.

(** material and binning parameters of bse_sim_mc (monte_carlo.py:54-72, kernel arguments of ebsd_mc.py:51-68) *)
Record mc_par := mkMC { start_E : R; n_energy : Z; n_dir : Z; n_depth : Z; bin_E : R; bin_d : R; atom_num : R; rho : R; weight : R; sigma_deg : R; omega_deg : R }.
(** .to(torch.int32) and C's (int): truncation towards zero *)
Definition truncZ (x : R) : Z := if Rlt_dec x 0 then (- floorZ (- x))%Z else floorZ x.

Section Physics.
Variable P : mc_par.
(** monte_carlo.py:113; ebsd_mc.py:76 *)
Definition ionization : R := (976/100 * atom_num P + 585/10 * Rpower (atom_num P) (-(19/100))) * (1/1000).
(** monte_carlo.py:118 *)
Definition alpha_of (E : R) : R := 34/10000 * Rpower (atom_num P) (66667/100000) / E.
(** lines 122-128 *)
Definition sigma_of (E : R) : R := 521/100 * (6022/10) * (atom_num P / E)^2 * (4 * PI / (alpha_of E * (1 + alpha_of E))) * ((511 + E) / (1024 + E))^2.
(** line 132 *)
Definition free_path (E : R) : R := 10000000 * weight P / (rho P * sigma_of E).
(** lines 143-147: the argument of the logarithm and the loss rate *)
Definition loss_arg (E : R) : R := 1166/1000 * E / ionization + 9911/10000.
Definition loss_rate (E : R) : R := - (785/100000) * (atom_num P / (weight P * E)) * ln (loss_arg E).
(** line 152: the cosine whose acos is the polar scattering angle *)
Definition polar_cos (a r : R) : R := 1 - 2 * a * r / (1 + a - r).
(** lines 158-183: new direction cosines before renormalisation (also ebsd_mc.py:125-150) *)
Definition scatter_raw (c : vec) (phi psi : R) : vec :=
  if Rlt_dec (99999/100000) (Rabs (vz c)) then
    mkV (sin phi * cos psi) (sin phi * sin psi) (vz c / Rabs (vz c) * cos phi)
  else
    let dsq := sqrt (Rmax (1 - (vz c)^2) 0) in
    mkV (sin phi * (vx c * vz c * cos psi - vy c * sin psi) * / dsq + vx c * cos phi)
        (sin phi * (vy c * vz c * cos psi + vx c * sin psi) * / dsq + vy c * cos phi)
        (- 1 * sin phi * cos psi * dsq + vz c * cos phi).
(** line 189 *)
Definition scatter (c : vec) (phi psi : R) : vec := let v := scatter_raw c phi psi in vscale (/ vnorm v) v.
(** lines 97-110, 239-246 *)
Definition start_raw : vec := let s := sigma_deg P * PI / 180 in let o := omega_deg P * PI / 180 in mkV (sin s * cos o) (sin s * sin o) (cos s).
Definition start_dir : vec := vscale (/ vnorm start_raw) start_raw.

Definition bin := (Z * Z * Z * Z)%type.
(** lines 204-217: bin of an electron leaving from depth [z] in direction [c] with energy [e]; [None]: masked away *)
Definition exit_bin (z : R) (c : vec) (e : R) : option bin :=
  let depth_max := IZR (n_depth P) * bin_d P in
  let i_d := truncZ (Rabs (z / vz c) / depth_max * IZR (n_depth P)) in
  let i_e := truncZ ((start_E P - e) / bin_E P) in
  let d := rosca_lambert c in
  let i_x := truncZ ((fst d * (499999/1000000) + 1/2) * IZR (n_dir P)) in
  let i_y := truncZ ((snd d * (499999/1000000) + 1/2) * IZR (n_dir P)) in
  if (Z.ltb i_d (n_depth P) && Z.ltb i_e (n_energy P) && Z.leb 0 i_e && Z.leb 0 i_d)%bool then Some (i_e, i_d, i_x, i_y) else None.

(** one electron: energy, depth, direction; [None]: NaN values *)
Definition estate := option (R * R * vec).
Definition fresh : estate := Some (start_E P, 0, start_dir).
(** lines 116-232 for one electron and its three uniform draws (psi already in [0, 2 pi)): new state, has it gone the sample, bin to count.
    A draw u <= 0 stands for the draw 0 of uniform_ (infinite step: it leaves upwards without a valid bin, or becomes NaN). *)
Definition mc_step (st : estate) (d : R * R * R) : estate * bool * option bin :=
  let '(u, r, psi) := d in
  match st with
  | None => (None, false, None)
  | Some (E, z, c) =>
      if Req_EM_T E 0 then (None, false, None) else
      let a := alpha_of E in
      if Req_EM_T (1 + a - r) 0 then (None, false, None) else
      let k := polar_cos a r in
      if Rlt_dec k (-1) then (None, false, None) else
      if Rlt_dec 1 k then (None, false, None) else
      let c' := scatter c (acos k) psi in
      if Rle_dec u 0 then (None, if Rlt_dec (vz c') 0 then true else false, None) else
      let step := - free_path E * ln u in
      let z' := z + step * vz c' in
      let gone := if Rlt_dec z' 0 then true else false in
      if Rle_dec (loss_arg E) 0 then (None, gone, None) else
      let e' := E + step * rho P * loss_rate E in
      (Some (e', z', c'), gone, if gone then exit_bin z c' e' else None)
  end.
End Physics.

(** ---- the batched loop of bse_sim_mc (monte_carlo.py:115-261) ---- *)
Section Loop.
Variables (S D B : Type) (beq : B -> B -> bool) (phys : S -> D -> S * bool * option B) (fresh : S) (n_max_steps : nat).
(** lines 116-246 for one electron (its tick counter and state): reset on exit or when the counter exceeds n_max_steps *)
Definition e_step (ts : nat * S) (d : D) : (nat * S) * bool * bool * option B :=
  let '(s', gone, b) := phys (snd ts) d in
  let t' := Datatypes.S (fst ts) in
  let reset := (Nat.ltb n_max_steps t' || gone)%bool in
  ((if reset then (0%nat, fresh) else (t', s')), gone, reset, b).
Fixpoint bins_of (l : list (option B)) : list B := match l with [] => [] | Some b :: r => b :: bins_of r | None :: r => bins_of r end.
(** lines 219-225: accumulator[indices] += 1 reads all cells first and writes back value + 1: a repeated index counts once *)
Definition index_add (acc : B -> nat) (bs : list B) : B -> nat := fun b => if existsb (beq b) bs then Datatypes.S (acc b) else acc b.
Definition count_true {A} (f : A -> bool) (l : list A) : nat := List.length (filter f l).
Record mstate := mkM { electrons : list (nat * S); yield : nat; finished : nat; acc : B -> nat; pushed : list (list B) (* ghost: the bins of every batch, newest first *) }.
(** one pass of the while loop; [ds] holds one draw per electron *)
Definition m_step (ds : nat -> D) (m : mstate) : mstate :=
  let outs := map (fun p => e_step (snd p) (ds (fst p))) (combine (seq 0 (List.length (electrons m))) (electrons m)) in
  let bs := bins_of (map (fun o => snd o) outs) in
  mkM (map (fun o => fst (fst (fst o))) outs)
      (yield m + count_true (fun o => snd (fst (fst o))) outs)
      (finished m + count_true (fun o => snd (fst o)) outs)
      (index_add (acc m) bs) (bs :: pushed m).
(** the while loop with explicit fuel; [None]: still running *)
Fixpoint m_loop (max_bse max_sims : nat) (draws : nat -> nat -> D) (it fuel : nat) (m : mstate) : option mstate :=
  if (Nat.ltb (yield m) max_bse && Nat.ltb (finished m) max_sims)%bool then
    match fuel with O => None | Datatypes.S f => m_loop max_bse max_sims draws (Datatypes.S it) f (m_step (draws it) m) end
  else Some m.
Definition m_init (n : nat) : mstate := mkM (repeat (0%nat, fresh) n) 0 0 (fun _ => 0%nat) [].
End Loop.
Definition bin_eqb (a b : bin) : bool :=
  let '(a1, a2, a3, a4) := a in let '(b1, b2, b3, b4) := b in (Z.eqb a1 b1 && Z.eqb a2 b2 && Z.eqb a3 b3 && Z.eqb a4 b4)%bool.
Definition bse_sim_mc (P : mc_par) (n_electrons max_bse max_sims n_max_steps : nat) (draws : nat -> nat -> R * R * R) (fuel : nat) :=
  m_loop _ _ _ bin_eqb (mc_step P) (fresh P) n_max_steps max_bse max_sims draws 0 fuel (m_init _ _ (fresh P) n_electrons).

(** ---- the OpenCL kernel (ebsd_mc.py:50-194) ---- *)
(** lines 173-178 *)
Definition flat_index (P : mc_par) (b : bin) : Z :=
  let '(e, d, x, y) := b in (e * (n_depth P * n_dir P * n_dir P) + d * (n_dir P * n_dir P) + x * n_dir P + y)%Z.
(** lines 153-183: bin of an exit; log depth scale when [logd] *)
Definition cl_bin (P : mc_par) (logd : bool) (z : R) (c : vec) (e : R) : option bin :=
  let esc := Rabs (z / vz c) in
  let i_d := truncZ ((if logd then ln (esc + 1) else esc) / bin_d P) in
  let i_e := truncZ ((start_E P - e) * (1 / bin_E P)) in
  let d := rosca_lambert c in
  let i_x := truncZ ((fst d * (499999/1000000) + 1/2) * IZR (n_dir P)) in
  let i_y := truncZ ((snd d * (499999/1000000) + 1/2) * IZR (n_dir P)) in
  if (Z.leb 0 i_e && Z.ltb i_e (n_energy P) && Z.leb 0 i_d && Z.ltb i_d (n_depth P) && Z.leb 0 i_x && Z.ltb i_x (n_dir P) && Z.leb 0 i_y && Z.ltb i_y (n_dir P))%bool
  then Some (i_e, i_d, i_x, i_y) else None.
(** lines 103-189: one trial, at most [n] steps from (E, z, c); a draw u <= 0 is an infinite step (energy minus infinity: break) *)
Fixpoint cl_trial (P : mc_par) (logd : bool) (draws : nat -> R * R * R) (n : nat) (E z : R) (c : vec) : option bin :=
  match n with
  | O => None
  | Datatypes.S n' =>
      let '(u, r, psi) := draws n in
      let c' := scatter c (acos (polar_cos (alpha_of P E) r)) psi in
      if Rle_dec u 0 then None else
      let step := - free_path P E * ln u in
      let z' := z + step * vz c' in
      let e' := E + step * rho P * loss_rate P E in
      if Rle_dec e' 0 then None else
      if Rlt_dec z' 0 then cl_bin P logd z c' e' else cl_trial P logd draws n' e' z' c'
  end.
(** atomic_inc of one cell *)
Definition atomic_inc (acc : Z -> nat) (i : Z) : Z -> nat := fun j => if Z.eqb j i then Datatypes.S (acc j) else acc j.

(** ebsd_mc.py:38-49 lfsr113_Bits on 32-bit words *)
Definition w32 (x : Z) : Z := Z.land x 4294967295.
Definition lfsr_word (q s1 mask s2 z : Z) : Z :=
  let b := Z.shiftr (Z.lxor (w32 (Z.shiftl z q)) z) s1 in Z.lxor (w32 (Z.shiftl (Z.land z mask) s2)) b.
Definition lfsr113 (z : Z * Z * Z * Z) : Z * Z * Z * Z :=
  let '(x, y, u, w) := z in (lfsr_word 6 13 4294967294 18 x, lfsr_word 2 27 4294967288 2 y, lfsr_word 13 21 4294967280 7 u, lfsr_word 3 12 4294967168 13 w).
(** the integer turned into a uniform draw, lines 110, 116, 120 *)
Definition lfsr_bits (z : Z * Z * Z * Z) : Z := let '(x, y, u, w) := z in Z.lxor (Z.lxor (Z.lxor x y) u) w.

(** ---- post-processing of histograms ---- *)
(** torch.searchsorted(xp, x, right=False) on increasing xp: how many nodes lie below x *)
Fixpoint searchsorted (xp : list R) (x : R) : nat := match xp with [] => 0%nat | a :: r => if Rlt_dec a x then Datatypes.S (searchsorted r x) else 0%nat end.
Definition slope (xp fp : list R) (i : nat) : R := (nth (Datatypes.S i) fp 0 - nth i fp 0) / (nth (Datatypes.S i) xp 0 - nth i xp 0).
Definition offset (xp fp : list R) (i : nat) : R := nth i fp 0 - slope xp fp i * nth i xp 0.
Inductive extrapolation := XConst | XLinear | XError.
(** ebsd_mc.py:377-424 _interp, one x; [None]: ValueError (or an index error of gather) *)
Definition interp (mode : extrapolation) (xp fp : list R) (x : R) : option R :=
  let n := List.length xp in let i := searchsorted xp x in
  match mode with
  | XError => if Nat.leb (n - 1) i then None else Some (slope xp fp i * x + offset xp fp i)
  | XConst => if Nat.eqb i 0 then Some (nth 0 fp 0) else if Nat.leb n i then Some (nth (n - 1) fp 0) else Some (slope xp fp (i - 1) * x + offset xp fp (i - 1))
  | XLinear => let j := Nat.min (i - 1) (n - 2) in Some (slope xp fp j * x + offset xp fp j)
  end.
(** lines 458-465: the quadratic through three nodes *)
Definition lagrange3 (x0 x1 x2 y0 y1 y2 x : R) : R :=
  y0 * ((x - x1) * (x - x2) / ((x0 - x1) * (x0 - x2))) + y1 * ((x - x0) * (x - x2) / ((x1 - x0) * (x1 - x2))) + y2 * ((x - x0) * (x - x1) / ((x2 - x0) * (x2 - x1))).
(** ebsd_mc.py:426-474 _interpquad, one x; [const]: the 'const' mode, everything else (including 'error') is not looked at *)
Definition interpquad (const : bool) (xp fp : list R) (x : R) : R :=
  let n := List.length xp in
  let i := Nat.min (Nat.max (searchsorted xp x) 1) (n - 2) in
  let v := lagrange3 (nth (i - 1) xp 0) (nth i xp 0) (nth (i + 1) xp 0) (nth (i - 1) fp 0) (nth i fp 0) (nth (i + 1) fp 0) x in
  if const then (if Rlt_dec x (nth 0 xp 0) then nth 0 fp 0 else if Rlt_dec (nth (n - 1) xp 0) x then nth (n - 1) fp 0 else v) else v.
(** lines 580, 600: symmetrisation of one row of direction bins *)
Definition symmetrise (l : list R) : list R := map (fun p => (fst p + snd p) / 2) (combine l (rev l)).
