(** Model of ebsdtorch/ebsd/master_pattern.py (MasterPattern) and ebsdtorch/io/read_master_pattern.py.
    Images are row-major lists of exact reals.  torch.nn.functional.grid_sample is modelled for the default arguments of
    MasterPattern.interpolate (mode="bilinear", padding_mode="border", align_corners=False).  CLAHE is an arbitrary result of
    the same size here (its model is ClaheModel.v).  The random draws of the factorisation are the oracle [rnd]. *)
From Coq Require Import String.
From Verif Require Import Base SymModel FactorModel SphereModel GeomModel ExpModel.
Open Scope R_scope.

Record image := mkI { i_h : nat; i_w : nat; i_px : row }.
Definition px (m : image) (r c : nat) : R := nth (r * i_w m + c) (i_px m) 0.
(** a tensor: shape and row-major data *)
Definition tensor : Type := list nat * row.
Inductive mp_arg := One (t : tensor) | Two (north south : tensor).
Record mp_state := mkMP {
  m_img : image;                            (* self.master_pattern *)
  m_binned : option image;                  (* self.master_pattern_binned *)
  m_factor : list (Z * (Z * Z));            (* self.factor_dict *)
  m_laue : Z }.                             (* self.laue_group *)

(** torch.cat of two images along the last dimension (also np.concatenate axis=-1) *)
Definition cat_cols (h w w' : nat) (a b : row) : row :=
  flat_map (fun r => (firstn w (skipn (r * w) a) ++ firstn w' (skipn (r * w') b))%list) (seq 0 h).
(** master_pattern.py:64-77: the pattern argument *)
Definition mp_pattern (a : mp_arg) : res image :=
  match a with
  | Two (sa, da) (sb, db) =>
      match sa, sb with
      | [h; w], [h'; w'] => if Nat.eqb h h' then Ok (mkI h (w + w') (cat_cols h w w' da db)) else Err RuntimeError
      | _, _ => Err ValueError
      end
  | One ([h; w], d) => Ok (mkI h w d)
  | One _ => Err ValueError
  end.
Definition given {A} (o : option A) : bool := match o with Some _ => true | None => false end.
(** master_pattern.py:39-91 __init__ *)
Definition mp_init (a : mp_arg) (laue : option Z) (pg : option string) (sg : option Z) : res mp_state :=
  if (negb (given laue) && negb (given pg) && negb (given sg))%bool then Err ValueError else
  if ((given laue && given pg) || (given laue && given sg) || (given pg && given sg))%bool then Err ValueError else
  match mp_pattern a with
  | Err e => Err e
  | Ok m =>
      match (match laue with Some l => Some l | None => match pg with Some p => point_group_to_laue p | None => match sg with Some n => space_group_to_laue n | None => None end end end) with
      | None => Err ValueError
      | Some l => Ok (mkMP m None [] l)
      end
  end.
(** avg_pool2d on an image *)
Definition pool (b : nat) (m : image) : res image :=
  if Nat.eqb b 0 then Err RuntimeError else
  if (Nat.ltb (i_h m) b || Nat.ltb (i_w m) b)%bool then Err RuntimeError else Ok (mkI (i_h m / b) (i_w m / b) (avg_pool (i_h m) (i_w m) b (i_px m))).
(** master_pattern.py:93-114 bin *)
Definition mp_bin (s : mp_state) (b : nat) : res mp_state :=
  match pool b (m_img s) with Err e => Err e | Ok m => Ok (mkMP (m_img s) (Some m) (m_factor s) (m_laue s)) end.
(** master_pattern.py:116-142 normalize; the binned copy is not touched.  [HasNaN'] when torch.std is 0 or undefined. *)
Inductive mp_norm := MNormalised (s : mp_state) | MNaN | MValueError.
Definition with_px (s : mp_state) (p : row) : mp_state := mkMP (mkI (i_h (m_img s)) (i_w (m_img s)) p) (m_binned s) (m_factor s) (m_laue s).
Definition mp_normalize (s : mp_state) (ty : string) : mp_norm :=
  let p := i_px (m_img s) in
  if string_dec ty "minmax" then MNormalised (with_px s (minmax p))
  else if string_dec ty "zeromean" then MNormalised (with_px s (zeromean p))
  else if string_dec ty "standard" then match standard p with Some q => MNormalised (with_px s q) | None => MNaN end
  else MValueError.
(** master_pattern.py:210-231 apply_clahe, with the CLAHE result as an argument; the binned copy is not touched *)
Definition mp_clahe (s : mp_state) (result : row) : mp_state := with_px s result.

(** grid_sample, one axis: unnormalise with align_corners=False, then border padding: min (max v 0) (size - 1) *)
Definition unnorm (size : nat) (x : R) : R := ((x + 1) * INR size - 1) / 2.
Definition border (size : nat) (v : R) : R := Rmin (INR (size - 1)) (Rmax v 0).
(** floor *)
Definition floorZ (x : R) : Z := Int_part x.
(** a tap outside the image contributes nothing *)
Definition tap (m : image) (r c : Z) : R :=
  if (Z.leb 0 r && Z.ltb r (Z.of_nat (i_h m)) && Z.leb 0 c && Z.ltb c (Z.of_nat (i_w m)))%bool then px m (Z.to_nat r) (Z.to_nat c) else 0.
(** grid_sample, bilinear: first coordinate along the width, second along the height *)
Definition grid_sample (m : image) (p : R * R) : R :=
  let ix := border (i_w m) (unnorm (i_w m) (fst p)) in let iy := border (i_h m) (unnorm (i_h m) (snd p)) in
  let x0 := floorZ ix in let y0 := floorZ iy in
  let x1 := (x0 + 1)%Z in let y1 := (y0 + 1)%Z in
  tap m y0 x0 * ((IZR x1 - ix) * (IZR y1 - iy)) + tap m y0 x1 * ((ix - IZR x0) * (IZR y1 - iy)) +
  tap m y1 x0 * ((IZR x1 - ix) * (iy - IZR y0)) + tap m y1 x1 * ((ix - IZR x0) * (iy - IZR y0)).

(** one point of master_pattern.py:144-208: optional normalisation (line 172; a zero vector gives NaN: None), projection, sampling *)
Definition sample (m : image) (normalize_coords : bool) (p : vec) : option R :=
  match (if normalize_coords then vnormalize p else Some p) with None => None | Some v => Some (grid_sample m (rosca_side_by_side v)) end.
Fixpoint zget {V} (k : Z) (d : list (Z * V)) : option V := match d with [] => None | (k', v) :: r => if Z.eqb k k' then Some v else zget k r end.
Fixpoint zset {V} (k : Z) (v : V) (d : list (Z * V)) : list (Z * V) := match d with [] => [(k, v)] | (k', v') :: r => if Z.eqb k k' then (k, v) :: r else (k', v') :: zset k v r end.
(** Tensor.view into rows, and the row-wise map back *)
Fixpoint rows_of {A} (h w : nat) (l : list A) : list (list A) := match h with O => [] | S k => firstn w l :: rows_of k w (skipn w l) end.
Inductive ires := IOk (out : list (option R)) (s : mp_state) | IErr (e : err) | IHang.
Section Interp.
Variable rnd : nat -> Z.
(** master_pattern.py:186-193: look the number of points up, or factorise it; the cache is emptied when it has more than 100 entries *)
Definition pseudo_shape (fuel : nat) (d : list (Z * (Z * Z))) (n : Z) : option ((Z * Z) * list (Z * (Z * Z))) :=
  match zget n d with
  | Some hw => Some (hw, d)
  | None => match nearly_square_factors rnd fuel n with
            | None => None
            | Some hw => Some (hw, zset n hw (if Nat.ltb 100 (List.length d) then [] else d))
            end
  end.
(** master_pattern.py:144-208 interpolate, on the points in row-major order *)
Definition interpolate (fuel : nat) (s : mp_state) (coords : list vec) (normalize_coords : bool) (virtual_binning : Z) : ires :=
  match (if Z.ltb 1 virtual_binning then
           match m_binned s with None => mp_bin s (Z.to_nat virtual_binning) | Some _ => Ok s end
         else Ok s) with
  | Err e => IErr e
  | Ok s1 =>
      let img := if Z.ltb 1 virtual_binning then match m_binned s1 with Some m => m | None => m_img s1 end else m_img s1 in
      let n := Z.of_nat (List.length coords) in
      match pseudo_shape fuel (m_factor s1) n with
      | None => IHang
      | Some ((h, w), d) =>
          let s2 := mkMP (m_img s1) (m_binned s1) d (m_laue s1) in
          if Z.eqb (h * w) n then IOk (concat (map (map (sample img normalize_coords)) (rows_of (Z.to_nat h) (Z.to_nat w) coords))) s2
          else IErr RuntimeError
      end
  end.
(** the calls that change the object *)
Inductive mp_op := OBin (b : nat) | ONorm (ty : string) | OClahe (result : row) | OInterp (coords : list vec) (nc : bool) (vb : Z).
Definition mp_step (fuel : nat) (s : mp_state) (o : mp_op) : option mp_state :=
  match o with
  | OBin b => match mp_bin s b with Ok s' => Some s' | Err _ => None end
  | ONorm ty => match mp_normalize s ty with MNormalised s' => Some s' | _ => None end
  | OClahe r => Some (mp_clahe s r)
  | OInterp c nc vb => match interpolate fuel s c nc vb with IOk _ s' => Some s' | _ => None end
  end.
Inductive mp_run (fuel : nat) : mp_state -> list mp_op -> mp_state -> Prop :=
| mr_nil s : mp_run fuel s [] s
| mr_cons s o s1 os s2 : mp_step fuel s o = Some s1 -> mp_run fuel s1 os s2 -> mp_run fuel s (o :: os) s2.
End Interp.

(** read_master_pattern.py:33-46: total counts per energy, normalised, weight the energy-resolved patterns *)
Definition energy_pdf (counts : row) : option row := if Req_EM_T (suml counts) 0 then None else Some (map (fun c => c / suml counts) counts).
Definition weighted (pdf : row) (pats : list row) (j : nat) : R := suml (map (fun ep => fst ep * nth j (snd ep) 0) (combine pdf pats)).
(** numpy squeeze *)
Definition np_squeeze (shape : list nat) : list nat := filter (fun d => negb (Nat.eqb d 1)) shape.
(** read_master_pattern.py:7-53 for data sets of shape [n_sites, n_energies, h, w] (h, w > 1), given as the list of images in storage
    order.  numpy.squeeze removes the site axis when there is one site: then axis 0 is the energy axis and is summed.  With one energy
    axis 0 is the site axis and all images are summed (the only weight is 1).  With several sites and energies axis 0 is the site axis,
    three dimensions remain and the constructor raises ValueError.  [accum] is the list of electron counts per energy; all zero gives
    NaN, here [None]. *)
Definition read_master_pattern (n_sites h w : nat) (accum north south : list row) (space_group : Z) : option (res mp_state) :=
  match energy_pdf (map suml accum) with
  | None => None
  | Some pdf =>
      let join wts := mp_init (One ([h; w + w]%nat, cat_cols h w w (map (weighted wts north) (seq 0 (h * w))) (map (weighted wts south) (seq 0 (h * w))))) None None (Some space_group) in
      Some (if Nat.eqb n_sites 1 then join pdf
            else if Nat.eqb (List.length accum) 1 then join (repeat (nth 0 pdf 0) n_sites)
            else mp_init (One ([List.length accum; h; w + w]%nat, [])) None None (Some space_group))
  end.

(** project_hrebsd.py:118-132 project_hrebsd with the default mode "bilinear": interpolation at directions that are not normalised again *)
Definition project_hrebsd (rnd : nat -> Z) (fuel : nat) (s : mp_state) (detector_coords : list vec) (virtual_binning : Z) : ires :=
  interpolate rnd fuel s detector_coords false virtual_binning.
