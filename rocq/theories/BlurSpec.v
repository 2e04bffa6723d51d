(** Specification vocabulary for blurring and masks. *)
From Verif Require Import Base MpModel BlurModel.
Open Scope R_scope.
(** the image read upside down / mirrored *)
Definition flip_rows (m : pic) : pic := mkPic (p_h m) (p_w m) (fun i j => p_at m (p_h m - 1 - i) j).
Definition flip_cols (m : pic) : pic := mkPic (p_h m) (p_w m) (fun i j => p_at m i (p_w m - 1 - j)).
(** equal sizes and equal pixels *)
Definition same_pic (a b : pic) : Prop := p_h a = p_h b /\ p_w a = p_w b /\ forall i j, (i < p_h a)%nat -> (j < p_w a)%nat -> p_at a i j = p_at b i j.
Definition pic_within (m : pic) (lo hi : R) : Prop := forall i j, (i < p_h m)%nat -> (j < p_w m)%nat -> lo <= p_at m i j <= hi.
(** distance of pixel (i, j) from the middle of an h x w image *)
Definition centre_distance (h w i j : nat) : R := sqrt ((INR i - (INR h - 1) / 2)^2 + (INR j - (INR w - 1) / 2)^2).
