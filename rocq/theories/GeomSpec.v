(** Specification of detector geometry. *)
From Verif Require Import Base QuatModel OriModel Se3Model Se3Spec GeomModel.

(** centre, in pixel index units, of the k-th group of [bin] consecutive pixels: mean of k bin, ..., k bin + bin - 1 *)
Definition bin_centre (bin k : nat) : R := INR (k * bin) + (INR bin - 1) / 2.
(** a geometry whose tunable part is a proper rigid motion: no rotation, or one outside the small-angle branch of the
    exponential map *)
Definition proper (g : geometry) : Prop :=
  rigid (g_pc g) /\ (vnorm (fst (masked g)) = 0 \/ 1/1000 < vnorm (fst (masked g))).
(** scan position as a point of the sample frame *)
Definition scan_point (scan : option vec2) : vec := match scan with Some s => plane s | None => vzero end.
(** height of a sample-frame point above the detector plane *)
Definition height (g : geometry) (p : vec) : R :=
  let (r, t) := get_detector2sample g in vdot (mapp r (mkV 0 0 1)) (vsub p t).
