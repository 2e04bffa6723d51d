(** Model of ebsdtorch/utils/pca_covmat.py (update_covmat, OnlineCovMatrix) and ebsdtorch/utils/pca_online.py
    (OjaPCA, KrasulinaPCA).  Rows are functions from feature index to value (dtype casts are the identity). *)
From Verif Require Import Base.

Notation row := (nat -> R).
Notation matx := (nat -> nat -> R).
(** sum over the rows of a batch / over indices 0..n-1 *)
Definition sumr (f : row -> R) (L : list row) : R := fold_right (fun r s => f r + s) 0 L.
Fixpoint sumn (n : nat) (f : nat -> R) : R := match n with O => 0 | S m => sumn m f + f m end.

(** pca_covmat.py:94-122: the three buffers mean, covmat_aggregate, obs *)
Record cstate := mkC { c_mean : row; c_agg : matx; c_obs : nat }.
Definition c_init : cstate := mkC (fun _ => 0) (fun _ _ => 0) 0.

(** pca_covmat.py:54-92 update_covmat / :124-135 forward.  [None]: an empty batch has mean 0/0 = NaN (line 76) and every
    buffer becomes NaN. *)
Definition c_update (st : cstate) (X : list row) : cstate :=
  let N := length X in
  let batch_mean := fun j => sumr (fun r => r j) X / INR N in
  let new_mean := fun j => (c_mean st j * INR (c_obs st) + batch_mean j * INR N) / (INR (c_obs st) + INR N) in
  let agg := fun j k => c_agg st j k + sumr (fun r => (r j - c_mean st j) * (r k - new_mean k)) X in
  mkC new_mean agg (c_obs st + N).
Definition c_forward (st : cstate) (X : list row) : option cstate :=
  match X with [] => None | _ => Some (c_update st X) end.
Fixpoint c_feed (st : cstate) (Xs : list (list row)) : option cstate :=
  match Xs with [] => Some st | X :: r => match c_forward st X with None => None | Some st' => c_feed st' r end end.

(** pca_covmat.py:137-151 get_covmat with correlation=False; [None]: division 0/0 with a single observation (line 144).
    With no observation the divisor is -1 and the zero matrix is returned (as -0). *)
Definition c_get (st : cstate) (j k : nat) : option R :=
  if Nat.eqb (c_obs st) 1 then None else Some (c_agg st j k / (INR (c_obs st) - 1)).
(** pca_covmat.py:145-149 correlation=True; [None]: a zero (or negative) variance gives 1/0 or sqrt of a negative number. *)
Definition c_corr (st : cstate) (j k : nat) : option R :=
  match c_get st j k, c_get st j j, c_get st k k with
  | Some c, Some vj, Some vk =>
      if Rle_dec vj 0 then None else if Rle_dec vk 0 then None else
      Some (c * (1 / sqrt vj) * (1 / sqrt vk))
  | _, _, _ => None
  end.

(** pca_online.py:84-111 OjaPCA.__init__ state and :113-130 forward.  [qr] is torch.linalg.qr(.)[0], [draw t] the torch.randn
    column drawn at step t.  [None]: ZeroDivisionError of [step % (n_components // 2)] (line 124). *)
Record ostate := mkO { o_Q : matx; o_step : nat; o_next : nat; o_init : nat -> bool }.
Definition o_start (Q0 : matx) : ostate := mkO Q0 0 0 (fun _ => false).
Section Oja.
Variables (d n : nat) (eta : R) (plus : bool) (qr : matx -> matx) (draw : nat -> row).
Definition oja_step_arg (Q : matx) (X : list row) : matx :=
  fun i j => Q i j + eta * sumr (fun r => r i * sumn d (fun a => r a * Q a j)) X.
Definition o_forward (st : ostate) (X : list row) : option ostate :=
  let Q := qr (oja_step_arg (o_Q st) X) in
  let s := S (o_step st) in
  if plus && (o_next st <? n)%nat then
    match (n / 2)%nat with
    | O => None
    | _ => if (s mod (n / 2) =? 0)%nat
           then Some (mkO (fun i j => if Nat.eqb j (o_next st) then draw s i else Q i j) s (S (o_next st))
                          (fun j => if Nat.eqb j (o_next st) then true else o_init st j))
           else Some (mkO Q s (o_next st) (o_init st))
    end
  else Some (mkO Q s (o_next st) (o_init st)).
Fixpoint o_feed (st : ostate) (Xs : list (list row)) : option ostate :=
  match Xs with [] => Some st | X :: r => match o_forward st X with None => None | Some st' => o_feed st' r end end.
(** pca_online.py:132-142 transform / inverse_transform of one row *)
Definition o_transform (Q : matx) (x : row) : row := fun j => sumn d (fun i => x i * Q i j).
Definition o_inverse (Q : matx) (z : row) : row := fun i => sumn n (fun j => z j * Q i j).
End Oja.

(** pca_online.py:38-81 KrasulinaPCA; [inv] is torch.linalg.inv_ex(.)[0] on n x n matrices. *)
Section Krasulina.
Variables (d n : nat) (eta : R) (inv : matx -> matx).
Definition gram (C : matx) : matx := fun a b => sumn d (fun i => C i a * C i b).
(** lines 56-58, 70: C_cross = inv(C^T C) C^T *)
Definition k_cross (C : matx) : matx := fun a i => sumn n (fun b => inv (gram C) a b * C i b).
(** lines 66-67 for one data row: latent = C_cross x, residual = x - C latent *)
Definition k_latent (C : matx) (x : row) : row := fun a => sumn d (fun i => k_cross C a i * x i).
Definition k_residual (C : matx) (x : row) : row := fun i => x i - sumn n (fun a => C i a * k_latent C x a).
(** line 68 *)
Definition k_alpha (C : matx) (x : row) : R := eta / (1 + eta * sqrt (sumn n (fun a => k_latent C x a * k_latent C x a))).
(** line 69: C += (alpha * residual) latent^T summed over the batch *)
Definition k_forward (C : matx) (X : list row) : matx :=
  fun i a => C i a + sumr (fun x => k_alpha C x * k_residual C x i * k_latent C x a) X.
(** lines 77-81 *)
Definition k_transform (C : matx) (x : row) : row := k_latent C x.
Definition k_inverse (C : matx) (z : row) : row := fun i => sumn n (fun a => C i a * z a).
End Krasulina.
