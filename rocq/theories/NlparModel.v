(** Model of ebsdtorch/preprocessing/nlpar.py (nlpar).  Exact reals for float32; the argsort order of the offsets (ties broken in an
    unspecified way) is the argument [offs]; NaN and infinities are the outcomes NlNaN / NlDiv. *)
From Verif Require Import Base.
Open Scope R_scope.

(** the data tensor (h_scan, w_scan, h_pat * w_pat) *)
Record scan := mkScan { s_h : nat; s_w : nat; s_n : nat; s_pix : nat -> nat -> nat -> R }.
Definition offset := (Z * Z)%type.
Definition inb (s : scan) (i j : Z) : bool := (Z.leb 0 i && Z.ltb i (Z.of_nat (s_h s)) && Z.leb 0 j && Z.ltb j (Z.of_nat (s_w s)))%bool.
(** nlpar.py:57-62: zero padding *)
Definition ppix (s : scan) (i j : Z) (p : nat) : R := if inb s i j then s_pix s (Z.to_nat i) (Z.to_nat j) p else 0.
Definition rsum (l : list R) : R := fold_right Rplus 0 l.
(** nlpar.py:104-111 *)
Definition dist (s : scan) (i j : Z) (o : offset) : R := rsum (map (fun p => (ppix s (i + fst o) (j + snd o) p - ppix s i j p)^2) (seq 0 (s_n s))).
(** nlpar.py:85-92: the offsets before sorting *)
Definition zrange (k : nat) : list Z := map (fun a => Z.of_nat a - Z.of_nat k)%Z (seq 0 (2 * k + 1)).
Definition offset_grid (k : nat) : list offset := flat_map (fun a => map (fun b => (a, b)) (zrange k)) (zrange k).
Definition l1 (o : offset) : Z := (Z.abs (fst o) + Z.abs (snd o))%Z.
(** torch.min(...).values of a non-empty slice *)
Fixpoint list_min (x : R) (l : list R) : R := match l with [] => x | y :: r => Rmin x (list_min y r) end.
(** nlpar.py:117-119: sigma_hat squared; offsets 1..8 *)
Definition sig2 (offs : list offset) (s : scan) (i j : Z) : R :=
  match firstn 8 (tl offs) with [] => 0 | o :: r => list_min (dist s i j o) (map (dist s i j) r) / (2 * INR (s_n s)) end.
(** nlpar.py:121-126: 1 outside the scan *)
Definition sig2p (offs : list offset) (s : scan) (i j : Z) : R := if inb s i j then sig2 offs s i j else 1.
(** nlpar.py:128-135 *)
Definition ndist (offs : list offset) (s : scan) (i j : Z) (o : offset) : R :=
  let v := sig2 offs s i j + sig2p offs s (i + fst o) (j + snd o) in (dist s i j o - INR (s_n s) * v) / (sqrt 2 * sqrt (INR (s_n s)) * v).
(** nlpar.py:135 *)
Definition weight (offs : list offset) (s : scan) (i j : Z) (o : offset) : R := - Rmax (ndist offs s i j o) 0.
Definition positions (s : scan) : list (Z * Z) := flat_map (fun i => map (fun j => (Z.of_nat i, Z.of_nat j)) (seq 0 (s_w s))) (seq 0 (s_h s)).
Definition mean (l : list R) : R := rsum l / INR (List.length l).
(** nlpar.py:149-154: objective at guess g *)
Definition objective (nn : list (list R)) (coeff g : R) : R :=
  mean (map (fun ws => exp (nth 0 ws 0 / g^2) / rsum (map (fun w => exp (w / g^2)) ws)) nn) - coeff.
(** nlpar.py:155-170 *)
Definition gradient (nn : list (list R)) (g : R) : R :=
  mean (map (fun ws => -2 * exp (nth 0 ws 0 / g^2) * (rsum (map (fun w => nth 0 ws 0 * exp (w / g^2)) ws) - rsum (map (fun w => w * exp (w / g^2)) ws)) / (g^3 * (rsum (map (fun w => exp (w / g^2)) ws))^2)) nn).
(** nlpar.py:147-173: None when a division by zero makes the guess non-finite *)
Fixpoint newton (fuel : nat) (nn : list (list R)) (coeff tol g : R) : option R :=
  match fuel with
  | O => Some g
  | S f => if Req_EM_T g 0 then None else if Req_EM_T (gradient nn g) 0 then None else
      let g' := g - objective nn coeff g / gradient nn g in
      if Rlt_dec (Rabs (objective nn coeff g)) tol then Some g' else newton f nn coeff tol g'
  end.
Inductive outcome := NlError | NlNaN | NlDiv | NlOk (out : nat -> nat -> nat -> R).
(** nlpar.py:175-186: logits of one position, None where masked; the softmax *)
Definition logits (offs : list offset) (s : scan) (g bias : R) (i j : Z) : list (option R) :=
  map (fun ko => if inb s (i + fst (snd ko)) (j + snd (snd ko)) then Some (weight offs s i j (snd ko) / g^2 + (if Nat.eqb (fst ko) 0 then Rmax bias 0 else 0)) else None) (combine (seq 0 (List.length offs)) offs).
Definition oexp (x : option R) : R := match x with Some v => exp v | None => 0 end.
Definition softmax (l : list (option R)) : list R := map (fun x => oexp x / rsum (map oexp l)) l.
(** nlpar.py:188-194 *)
Definition denoise (offs : list offset) (s : scan) (g bias : R) (i j : nat) (p : nat) : R :=
  rsum (map (fun ow => snd ow * ppix s (Z.of_nat i + fst (fst ow)) (Z.of_nat j + snd (fst ow)) p) (combine offs (softmax (logits offs s g bias (Z.of_nat i) (Z.of_nat j))))).
(** nlpar.py:21-194.  torch.min over an empty slice is an error; a zero sigma makes the centre distance 0 / 0 = NaN, which the mean over the
    scan carries into guess_coeff and from there into every weight *)
Definition nlpar (offs : list offset) (s : scan) (coeff tol bias : R) : outcome :=
  match tl offs with
  | [] => NlError
  | _ => if existsb (fun ij => if Req_EM_T (sig2 offs s (fst ij) (snd ij)) 0 then true else false) (positions s) then NlNaN else
      match newton 10 (map (fun ij => map (weight offs s (fst ij) (snd ij)) (firstn 9 offs)) (positions s)) coeff tol 1 with
      | None => NlDiv
      | Some g => if Req_EM_T g 0 then NlDiv else NlOk (denoise offs s g bias)
      end
  end.
