(** Specification vocabulary for cleaning a scan and for downsampling. *)
From Verif Require Import Base ExpModel BlurModel NlparModel.
Open Scope R_scope.
(** a scan of at least one pattern, every pattern with h * w pixels *)
Definition well_formed (s : exp_state) : Prop := e_pats s <> [] /\ forall p, In p (e_pats s) -> List.length p = (e_h s * e_w s)%nat.
(** [s'] is the scan [s] with one background image B added to every pattern and a brightness offset c i added to pattern i *)
Definition same_up_to_background (s s' : exp_state) : Prop :=
  e_h s' = e_h s /\ e_w s' = e_w s /\ List.length (e_pats s') = List.length (e_pats s) /\
  exists (B c : nat -> R), forall i, (i < List.length (e_pats s))%nat ->
    nth i (e_pats s') [] = map (fun j => nth j (nth i (e_pats s) []) 0 + B j + c i) (seq 0 (List.length (nth i (e_pats s) []))).
(** pixel p of pattern (i, j) of a two-dimensional scan with rows of b patterns *)
Definition stored (s : exp_state) (b i j p : nat) : R := nth p (nth (i * b + j) (e_pats s) []) 0.
Definition constant_pic (m : pic) (c : R) : Prop := forall i j, (i < p_h m)%nat -> (j < p_w m)%nat -> p_at m i j = c.
(** the greatest integer not above the size over the factor: what "downsample by s" leaves of n samples *)
Definition whole_part (x : R) (k : nat) : Prop := INR k <= x < INR k + 1.
