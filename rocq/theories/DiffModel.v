(** Model of ebsdtorch/crystallography/diffraction.py and ebsd_master.py: beams, structure factors, dynamical matrix, master pattern.
    Exact reals, complex numbers as pairs.  The atomic scattering factors, torch.matrix_exp and the content of torch.empty are oracles (quantified arguments). *)
From Coq Require Import Reals ZArith List Bool Lia Lra.
From Verif Require IndexModel.
From Verif Require Import Base SgModel CellModel.
Import ListNotations.
Open Scope R_scope.

Definition cplx := (R * R)%type.
Definition cre (z : cplx) : R := fst z.
Definition cim (z : cplx) : R := snd z.
Definition c0 : cplx := (0, 0).
Definition cadd (a b : cplx) : cplx := (fst a + fst b, snd a + snd b).
Definition cmul (a b : cplx) : cplx := (fst a * fst b - snd a * snd b, fst a * snd b + snd a * fst b).
Definition cconj (a : cplx) : cplx := (fst a, - snd a).
Definition cscal (r : R) (a : cplx) : cplx := (r * fst a, r * snd a).
Definition csum (l : list cplx) : cplx := fold_right cadd c0 l.
Definition cabs (a : cplx) : R := sqrt (fst a * fst a + snd a * snd a).
(** exp(i t) *)
Definition cexpi (t : R) : cplx := (cos t, sin t).

(** diffraction.py:188-191, 247-249: a site of the asymmetric unit: atomic number, occupancy, Debye-Waller factor, orbit (cell.atom_types, atom_data[:, 3], atom_data[:, 4], apos) *)
Record site := mkSite { s_z : R; s_occ : R; s_dw : R; s_orbit : list vec }.
Definition hkl := (Z * Z * Z)%type.
Definition hkl0 : hkl := (0, 0, 0)%Z.
Definition hsub (a b : hkl) : hkl := let '(h, k, l) := a in let '(h', k', l') := b in ((h - h')%Z, (k - k')%Z, (l - l')%Z).
Definition hvec (a : hkl) : vec := let '(h, k, l) := a in zvec h k l.
Definition hlen (L : lattice) (a : hkl) : R := calc_length L (hvec a) Recip.
Definition gdot (a : hkl) (p : vec) : R := vdot (hvec a) p.

(** diffraction.py:110-143 calc_lambda: wavelength, relativistic correction, acceleration potential *)
Definition temp1 : R := 122642584554 / 100000000000.
Definition temp2 (kv : R) : R := 97847561649 / 100000000000000 * kv.
Definition rel_corr (kv : R) : R := 1 + 2 * temp2 kv.
Definition psi_hat (kv : R) : R := kv * (1 + temp2 kv) * 1000.
Definition wavelength (kv : R) : R := temp1 / sqrt (psi_hat kv).

(** lines 164-174, 366-378: (0,0,0) prepended to the reflections; [None]: get_reflections raises *)
Definition beams (L : lattice) (sg : nat) (dmin : R) : option (list hkl) := option_map (fun l => hkl0 :: l) (get_reflections L sg dmin false true).
(** lines 252-264: (0,0,0) prepended to the differences *)
Definition differences (L : lattice) (sg : nat) (dmin : R) : option (list hkl) := option_map (fun l => hkl0 :: l) (get_reflections L sg dmin true true).

(** lines 146-211 calc_sgh, one site, entry [i, j] for beams gi, gj: the vector is g_j - g_i *)
Definition sgh (L : lattice) (s : site) (gi gj : hkl) : cplx :=
  let d := hsub gj gi in
  let s_squared := 1/4 * (hlen L d) ^ 2 in
  let dwf := s_z s ^ 2 * s_occ s * exp (- s_dw s * s_squared) in
  cscal dwf (csum (map (fun p => cexpi (2 * PI * gdot d p)) (s_orbit s))).

(** lines 313-332: [sf] gives the complex scattering factor of a site (by position) at a length of g *)
Definition p1 (s : site) (d : hkl) : cplx := csum (map (fun p => cexpi (- (2 * PI) * gdot d p)) (s_orbit s)).
Fixpoint indexed {A} (n : nat) (l : list A) : list (nat * A) := match l with [] => [] | a :: r => (n, a) :: indexed (S n) r end.
Definition ff (L : lattice) (sf : nat -> R -> cplx) (sites : list site) (d : hkl) : cplx :=
  csum (map (fun s => cscal (cre (sf (fst s) (hlen L d)) * s_occ (snd s)) (p1 (snd s) d)) (indexed 0 sites)).
Definition gg (L : lattice) (sf : nat -> R -> cplx) (sites : list site) (d : hkl) : cplx :=
  csum (map (fun s => cscal (cim (sf (fst s) (hlen L d)) * s_occ (snd s)) (p1 (snd s) d)) (indexed 0 sites)).
(** lines 309-311 *)
Definition pref (v : R) : R := 4787801 / 100000000 / v.
Definition preg : R := 664840340614319 / 1000000000000000.
(** lines 334-343 *)
Definition vmod (L : lattice) (v : R) sf sites d : R := pref v * cabs (ff L sf sites d).
Definition upmod (L : lattice) (v : R) (absorption : bool) sf sites d : R := if absorption then preg * pref v * cabs (gg L sf sites d) else 0.
Definition ucg (L : lattice) (v : R) (absorption : bool) sf sites (d : hkl) : cplx :=
  let f := ff L sf sites d in let g := gg L sf sites d in
  if absorption then cscal (pref v * preg) (cre f - cim g, cim f + cre g) else cscal (pref v * preg) f.
(** lines 351-359: wavelength with the mean inner potential added *)
Definition mlambda (L : lattice) (v : R) sf sites (kv : R) : R := temp1 / sqrt (vmod L v sf sites hkl0 + kv * (1 + temp2 kv) * 1000).

(** lines 387-398, 408-412: flattened index *)
Definition flat (lim : nat * nat * nat) (d : hkl) : Z :=
  let '(a, b, c) := lim in let '(h, k, l) := d in
  ((h + 2 * Z.of_nat a) * (4 * Z.of_nat b + 1) * (4 * Z.of_nat c + 1) + (k + 2 * Z.of_nat b) * (4 * Z.of_nat c + 1) + (l + 2 * Z.of_nat c))%Z.
(** lines 388-405: a table of uninitialised memory ([junk]), written at the indices of the differences (a later write wins), read at an index *)
Fixpoint table (lim : nat * nat * nat) (f : hkl -> cplx) (junk : Z -> cplx) (l : list hkl) (i : Z) : cplx :=
  match l with [] => junk i | d :: r => if existsb (fun e => Z.eqb (flat lim e) i) r then table lim f junk r i else if Z.eqb (flat lim d) i then f d else junk i end.
(** lines 380-381, 408-416: entry [i][j] of ucg_diff is read at the index of g_j - g_i *)
Definition coupling (lim : nat * nat * nat) (f : hkl -> cplx) (junk : Z -> cplx) (diffs bs : list hkl) : list (list cplx) :=
  map (fun gi => map (fun gj => table lim f junk diffs (flat lim (hsub gj gi))) bs) bs.

(** calc_helper_scatter_matrix, lines 424-661 (lines 455-543 repeat the text of calc_helper_bloch_formalism) *)
(** lines 546, 551 *)
Definition cphase (z : cplx) : R := atan2 (cim z) (cre z).
(** lines 573-585: 1/xg with the fallback 1e8 *)
Definition xg_inv (m lam : R) : R := if Rlt_dec 0 (Rabs m) then / (1 / Rabs m / lam) else / 100000000.
(** lines 545-555, 587-601 *)
Definition qg (L : lattice) (v : R) (absorption shift : bool) sf sites (lam : R) (d : hkl) : cplx :=
  let f := ff L sf sites d in let g := gg L sf sites d in
  let um := preg * (pref v * cabs f) in let up := upmod L v absorption sf sites d in
  let x := xg_inv um lam in let y := xg_inv up lam in
  if absorption then
    if shift then (cos (cphase f) * x - sin (cphase g) * y, cos (cphase g) * y + sin (cphase f) * x)
    else let arg := cphase g - cphase f in (x - sin arg * y, cos arg * y)
  else (x, 0).

(** ---- excitation errors ---- *)
(** diffraction.py:664-715 calc_sg; [None]: calc_angle raises *)
Definition calc_sg (L : lattice) (g k : vec) : option R :=
  let kpg := vadd k g in let tkpg := vadd (vscale 2 k) g in
  match calc_angle L kpg k Recip with
  | Some q2 => Some (- calc_dot L g tkpg Recip / (2 * calc_length L kpg Recip * cos q2))
  | None => None
  end.
(** ebsd_master.py:130-175 calc_sg_batched *)
Definition calc_sg_batched (L : lattice) (g k : vec) : R :=
  let kpg := vadd k g in let tkpg := vadd (vscale 2 k) g in
  let q1 := sqrt (calc_dot L kpg kpg Recip) in
  - calc_dot L g tkpg Recip / (2 * q1 * (calc_dot L kpg k Recip / (q1 * sqrt (calc_dot L k k Recip)))).

(** ---- ebsd_master_pattern (ebsd_master.py:178-306) ---- *)
(** lines 228-230: Cartesian direction to a wave vector of length 1/lambda in reciprocal components *)
Definition wavevector (L : lattice) (v lam : R) (k : vec) : vec := transform_space L v (vscale (/ lam) (norm_vec L k Cart)) Cart Recip.
(** lines 270-276: sg, zero for the first beam *)
Definition errors (L : lattice) (bs : list hkl) (k : vec) : list R :=
  match bs with [] => [] | _ :: r => 0 :: map (fun g => calc_sg_batched L (hvec g) k) r end.
(** lines 232-234, 278-282: i pi lambda (V + diag(2 sg / lambda + i upmod)), the diagonal of V zeroed first *)
Definition dynmat (lam : R) (sg : list R) (up : nat -> R) (V : list (list cplx)) : list (list cplx) :=
  map (fun r => map (fun c => cmul (0, PI * lam) (if Nat.eqb (fst r) (fst c) then (2 * nth (fst r) sg 0 / lam, up (fst r)) else snd c)) (indexed 0 (snd r))) (indexed 0 V).
(** line 298 *)
Definition matvec (m : list (list cplx)) (x : list cplx) : list cplx := map (fun r => csum (map (fun p => cmul (fst p) (snd p)) (combine r x))) m.
(** lines 243-245 *)
Definition psi0 (n : nat) : list cplx := match n with O => [] | S m => (1, 0) :: repeat c0 m end.
(** lines 293-298: the wave function after d + 1 steps *)
Fixpoint psi (e : list (list cplx)) (x : list cplx) (d : nat) : list cplx := match d with O => matvec e x | S n => matvec e (psi e x n) end.
(** lines 299-304: real part of the sum over beams of Sgh * psi psi^* *)
Definition weigh (S : list (list cplx)) (x : list cplx) : R :=
  cre (csum (map (fun r => csum (map (fun c => cmul (snd c) (cmul (fst r) (cconj (fst c)))) (combine x (snd r)))) (combine x S))).
(** lines 178-211 *)
Definition sgh_matrix (L : lattice) (s : site) (bs : list hkl) : list (list cplx) := map (fun gi => map (fun gj => sgh L s gi gj) bs) bs.
(** lines 250-256: weights divided by their total; index of the first depth with 95 percent of the row, 0 if there is none (argmax of all zeros, also for a NaN row) *)
Definition total (w : list (list R)) : R := rsum (map rsum w).
Definition normalised (w : list (list R)) : list (list R) := map (map (fun x => x / total w)) w.
Fixpoint first_reach (row : list R) (acc : R) (goal : R) (i : nat) : nat :=
  match row with [] => 0%nat | x :: r => if Rle_dec goal (acc + x) then i else first_reach r (acc + x) goal (S i) end.
Definition cutoff (row : list R) : nat := if Req_EM_T (rsum row) 0 then 0%nat else first_reach (map (fun x => x / rsum row) row) 0 (95/100) 0.
(** line 296 *)
Definition depths (row : list R) : nat := Nat.min (cutoff row) 100.
(** lines 285-304 for one k-vector and one site *)
Definition intensity (row : list R) (S : list (list cplx)) (e : list (list cplx)) (n : nat) : R :=
  rsum (map (fun d => nth d row 0 * weigh S (psi e (psi0 n) d)) (seq 0 (depths row))).
Inductive mp_result := MpOk (p : list (list (list R))) | MpRaises.
(** one voltage: kilovolts and its scattering factors *)
Record beam_energy := mkE { e_kv : R; e_sf : nat -> R -> cplx }.
(** lines 178-306.  [mexp]: torch.matrix_exp; result indexed by voltage, site, k-vector.  torch.complex(2 sg / lambda, upmod_000) broadcasts (chunk, n_g) with (n_v,): it needs n_v = 1 or n_v = n_g, and a real upmod (absorption).  A weight table with fewer rows than voltages raises (line 296).  Simplified: an empty voltage list and n_g = 1 with several voltages count as raising; the k-vectors of kvectors_grid (KvModel) are the argument [ks]; the in-place update of mc_weights is [normalised].
    [step], the depth step, is not used by the code. *)
Definition master_pattern (mexp : list (list cplx) -> list (list cplx)) (junk : Z -> cplx) (L : lattice) (v : R) (sg : nat) (sites : list site) (energies : list beam_energy) (step : R)
    (w : list (list R)) (dmin : R) (chunk : nat) (ks : list vec) (absorption : bool) : mp_result :=
  match beams L sg dmin, differences L sg dmin with
  | Some bs, Some ds =>
    let n := length bs in let nv := length energies in
    if negb absorption then MpRaises else if Nat.ltb (length w) nv then MpRaises else if negb (Nat.eqb nv 1 || Nat.eqb nv n) then MpRaises else
    if Nat.eqb chunk 0 then MpRaises else
    let ups := map (fun e => upmod L v absorption (e_sf e) sites hkl0) energies in
    let up := fun j => if Nat.eqb nv 1 then nth 0 ups 0 else nth j ups 0 in
    MpOk (map (fun ie =>
      let e := snd ie in let row := nth (fst ie) (normalised w) [] in
      let lam := mlambda L v (e_sf e) sites (e_kv e) in
      let V := coupling (hkl_limits L dmin) (ucg L v absorption (e_sf e) sites) junk ds bs in
      map (fun s => flat_map (fun part => map (fun k => intensity row (sgh_matrix L s bs) (mexp (dynmat lam (errors L bs (wavevector L v lam k)) up V)) n) part) (IndexModel.split_go (length ks) chunk ks)) sites)
      (indexed 0 energies))
  | _, _ => MpRaises
  end.
