(** Proofs about the space groups: one computed check over the 230 groups, then reflection into the specification. *)
From Coq Require Import ZArith List String Ascii Bool Lia.
From Verif Require Import SgModel SgSpec KvModel KvSpec KvTest.
Import ListNotations.
Open Scope Z_scope.

Definition comp (a b : sop) : sop :=
  mkOp (r11 a * r11 b + r12 a * r21 b + r13 a * r31 b) (r11 a * r12 b + r12 a * r22 b + r13 a * r32 b) (r11 a * r13 b + r12 a * r23 b + r13 a * r33 b)
       (r21 a * r11 b + r22 a * r21 b + r23 a * r31 b) (r21 a * r12 b + r22 a * r22 b + r23 a * r32 b) (r21 a * r13 b + r22 a * r23 b + r23 a * r33 b)
       (r31 a * r11 b + r32 a * r21 b + r33 a * r31 b) (r31 a * r12 b + r32 a * r22 b + r33 a * r32 b) (r31 a * r13 b + r32 a * r23 b + r33 a * r33 b)
       ((r11 a * t1 b + r12 a * t2 b + r13 a * t3 b + t1 a) mod 24) ((r21 a * t1 b + r22 a * t2 b + r23 a * t3 b + t2 a) mod 24) ((r31 a * t1 b + r32 a * t2 b + r33 a * t3 b + t3 a) mod 24) 1.
Definition small (z : Z) : bool := ((-1 <=? z) && (z <=? 1))%bool.
Definition norm_t (z : Z) : bool := ((0 <=? z) && (z <? 24))%bool.
Definition op_ok (o : sop) : bool :=
  (small (r11 o) && small (r12 o) && small (r13 o) && small (r21 o) && small (r22 o) && small (r23 o) && small (r31 o) && small (r32 o) && small (r33 o) && norm_t (t1 o) && norm_t (t2 o) && norm_t (t3 o) && (hom o =? 0))%bool.
Fixpoint distinct (l : list sop) : bool := match l with [] => true | a :: r => if existsb (same_top a) r then false else distinct r end.
Definition lin (o : sop) : list Z := [r11 o; r12 o; r13 o; r21 o; r22 o; r23 o; r31 o; r32 o; r33 o].
Definition lin_eqb (a b : list Z) : bool := if list_eq_dec Z.eq_dec a b then true else false.
Definition id_lin : list Z := [1; 0; 0; 0; 1; 0; 0; 0; 1].
Definition t_eqb (a b : Z * Z * Z) : bool := let '(x, y, z) := a in let '(u, v, w) := b in ((x =? u) && (y =? v) && (z =? w))%bool.
(** linear parts that occur in each system *)
Definition sign_mats : list (list Z) := flat_map (fun a => flat_map (fun b => map (fun c => [a; 0; 0; 0; b; 0; 0; 0; c]) [1; -1]) [1; -1]) [1; -1].
Definition perm_mats (s : list Z) : list (list Z) :=
  match s with [a; _; _; _; b; _; _; _; c] => [[a;0;0;0;b;0;0;0;c]; [0;a;0;0;0;b;c;0;0]; [0;0;a;b;0;0;0;c;0]; [0;a;0;b;0;0;0;0;c]; [0;0;a;0;b;0;c;0;0]; [a;0;0;0;0;b;0;c;0]] | _ => [] end.
Definition hex2 : list (Z * Z * Z * Z) := [(1,0,0,1); (0,-1,1,-1); (-1,1,-1,0); (-1,0,0,-1); (0,1,-1,1); (1,-1,1,0); (0,1,1,0); (1,-1,0,-1); (-1,0,-1,1); (0,-1,-1,0); (-1,1,0,1); (1,0,1,-1)].
Definition rots (s : nat) : list (list Z) :=
  match s with
  | 1%nat => [[1;0;0;0;1;0;0;0;1]; [-1;0;0;0;-1;0;0;0;-1]]
  | 2%nat => [[1;0;0;0;1;0;0;0;1]; [-1;0;0;0;-1;0;0;0;-1]; [-1;0;0;0;1;0;0;0;-1]; [1;0;0;0;-1;0;0;0;1]]
  | 3%nat => sign_mats
  | 4%nat => flat_map (fun m => match m with [a; _; _; _; b; _; _; _; c] => [[a;0;0;0;b;0;0;0;c]; [0;a;0;b;0;0;0;0;c]] | _ => [] end) sign_mats
  | 5%nat | 6%nat => flat_map (fun q => let '(a, b, c, d) := q in map (fun e => [a;b;0;c;d;0;0;0;e]) [1; -1]) hex2
  | _ => flat_map perm_mats sign_mats
  end.
Definition check_ops (sg : nat) (ops : list sop) : bool :=
      (Nat.eqb (List.length ops) (nth (sg - 1) sg_ords 0%nat)
       && forallb op_ok ops && distinct ops
       && existsb (same_top identity_op) ops
       && forallb (fun a => forallb (fun b => existsb (same_top (comp a b)) ops) ops) ops
       && forallb (fun a => existsb (fun b => same_top (comp a b) identity_op) ops) ops
       && forallb (fun p => Nat.eqb (List.length (filter (of_type (fst p)) ops)) (snd p * List.length (centering (lattice_letter sg)))) (combine element_types (nth (crystal_class sg - 1) class_elements []))
       && forallb (fun o => if lin_eqb (lin o) id_lin then existsb (t_eqb (trans_of o)) (centering (lattice_letter sg)) else true) ops
       && forallb (fun t => existsb (fun o => (lin_eqb (lin o) id_lin && t_eqb (trans_of o) t)%bool) ops) (centering (lattice_letter sg))
       && forallb (fun o => existsb (lin_eqb (lin o)) (rots (crystal_system sg))) ops)%bool.
Definition check_group (sg : nat) : bool := match sg_operators sg 1 with SgOk ops => (check_ops sg ops && implb (memb sq_groups sg) (cover_test sg ops))%bool | _ => false end.
Definition all_groups : list nat := seq 1 230.
Lemma all_checked : forallb check_group all_groups = true.
Proof. vm_compute. reflexivity. Qed.
Lemma checked sg : (1 <= sg <= 230)%nat -> check_group sg = true.
Proof. intros H. apply (proj1 (forallb_forall check_group all_groups) all_checked). apply in_seq. lia. Qed.
Lemma checked_both sg : (1 <= sg <= 230)%nat -> exists ops, sg_operators sg 1 = SgOk ops /\ check_ops sg ops = true /\ implb (memb sq_groups sg) (cover_test sg ops) = true.
Proof.
  intros H. apply checked in H. unfold check_group in H. destruct (sg_operators sg 1) as [ops| |]; [|discriminate|discriminate].
  apply andb_true_iff in H. exists ops. split; [reflexivity|exact H].
Qed.
Lemma checked_ops sg : (1 <= sg <= 230)%nat -> exists ops, sg_operators sg 1 = SgOk ops /\ check_ops sg ops = true.
Proof. intros H. destruct (checked_both sg H) as (ops & E & C & _). exists ops. split; [exact E|exact C]. Qed.
Lemma checked_cover sg : In sg sq_groups -> exists ops, sg_operators sg 1 = SgOk ops /\ cover_test sg ops = true.
Proof.
  intros H. assert (R : (1 <= sg <= 230)%nat) by (unfold sq_groups in H; apply in_app_iff in H; rewrite !in_seq in H; lia).
  destruct (checked_both sg R) as (ops & E & _ & C). exists ops. split; [exact E|].
  assert (M : memb sq_groups sg = true) by (apply existsb_exists; exists sg; split; [exact H|apply Nat.eqb_refl]). rewrite M in C. exact C.
Qed.
Lemma checked_length sg ops : (1 <= sg <= 230)%nat -> sg_operators sg 1 = SgOk ops -> List.length ops = nth (sg - 1) sg_ords 0%nat.
Proof.
  intros H E. destruct (checked_ops sg H) as (ops' & E' & C). rewrite E in E'. injection E' as <-. unfold check_ops in C.
  repeat match goal with K : (_ && _)%bool = true |- _ => apply andb_true_iff in K as [K _] end. apply Nat.eqb_eq. exact C.
Qed.
