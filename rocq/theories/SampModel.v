(** Model of ebsdtorch/s2_and_so3/sampling.py and of the two fundamental-zone samplers of laue_fz_ori.py.
    Exact reals; random draws (torch.rand, torch.randperm) are arguments; torch.argsort inside cu2qu is the argument [srt]. *)
From Coq Require Import String.
From Verif Require Import Base QuatModel OriModel CuboModel LaueModel SphereModel.

(** sampling.py:34-55: the epsilon of the lattice; [None] is the ValueError of line 57 *)
Definition s2_epsilon (mode : string) (n : nat) : option R :=
  if String.eqb mode "avg" then Some (36/100)
  else if String.eqb mode "max" then
    Some (let n := Z.of_nat n in
          if Z.leb 600000 n then 214 else if Z.leb 400000 n then 75 else if Z.leb 11000 n then 27
          else if Z.leb 890 n then 10 else if Z.leb 177 n then 333/100 else if Z.leb 24 n then 133/100 else 33/100)
  else None.
(** sampling.py:59-62, the i-th point *)
Definition golden : R := (1 + sqrt 5) / 2.
Definition s2_fib_point (n : nat) (eps : R) (i : nat) : vec :=
  theta_phi_to_xyz (2 * PI * INR i / golden) (acos (1 - 2 * (INR i + eps) / (INR n - 1 + 2 * eps))).
(** sampling.py:15-63 s2_fibonacci *)
Definition s2_fibonacci (n : nat) (mode : string) : option (list vec) :=
  match s2_epsilon mode n with Some eps => Some (map (s2_fib_point n eps) (seq 0 n)) | None => None end.

(** sampling.py:88-111 so3_fibonacci *)
Definition PSI : R := 1533751168755204288118041 / 1000000000000000000000000.
Definition so3_fib_point (n i : nat) : quat :=
  let s := INR i + 1/2 in
  let t := s / INR n in
  let d := 2 * PI * s in
  let alpha := d / sqrt 2 in
  let beta := d / PSI in
  mkQ (sqrt t * sin alpha) (sqrt t * cos alpha) (sqrt (1 - t) * sin beta) (sqrt (1 - t) * cos beta).
Definition so3_fibonacci (n : nat) : list quat := map (so3_fib_point n) (seq 0 n).

(** sampling.py:116-135 so3_cu_rand; [draws] are the rows of torch.rand(n, 3) *)
Definition cu_edge : R := Rpower PI (2/3).
Definition so3_cu_rand (fit : list R) (srt : vec -> perm3) (draws : list vec) : list quat :=
  map (fun u => let cu := mkV (vx u * cu_edge - 1/2 * cu_edge) (vy u * cu_edge - 1/2 * cu_edge) (vz u * cu_edge - 1/2 * cu_edge) in
                qu_std (qu_norm (cu2qu fit (srt cu) cu))) draws.

(** sampling.py:138-181 so3_uniform_quat; a draw is (u, v, w) *)
Definition so3_uniform_point (d : R * R * R) : quat :=
  let '(u, v, w) := d in
  mkQ (sqrt (1 - u) * sin (2 * PI * v)) (sqrt (1 - u) * cos (2 * PI * v)) (sqrt u * sin (2 * PI * w)) (sqrt u * cos (2 * PI * w)).

(** torch.linspace(a, b, steps) *)
Definition linspace (a b : R) (steps : nat) : list R :=
  map (fun i => a + INR i * ((b - a) / INR (steps - 1))) (seq 0 steps).
(** sampling.py:197-206: the cubochoric grid (linspace without its last point, meshgrid "ij", flattened) *)
Definition cube_axis (edge : nat) : list R := removelast (linspace (- (1/2) * cu_edge) (1/2 * cu_edge) (edge + 1)).
Definition cube_grid (edge : nat) : list vec :=
  flat_map (fun x => flat_map (fun y => map (fun z => mkV x y z) (cube_axis edge)) (cube_axis edge)) (cube_axis edge).
(** sampling.py:184-209 so3_cubochoric_grid *)
Definition so3_cubochoric_grid (fit : list R) (srt : vec -> perm3) (edge : nat) : list quat :=
  map (fun cu => qu_std (cu2qu fit (srt cu) cu)) (cube_grid edge).

(** Python int(x) for x >= 0 *)
Definition int_of (x : R) : nat := Z.to_nat (Int_part x).
(** laue_fz_ori.py:497-503: edge length from the requested number of samples *)
Definition edge_for_count (mult n : nat) : nat := int_of (cbrt (INR n * (1/2) * INR mult)).
(** laue_fz_ori.py:544-547: edge length from the requested resolution in degrees (only resolutions above 0.03732) *)
Definition edge_for_angle (mult : nat) (res : R) : nat :=
  let n := 2 * (13197049/100000) / (res - 3732/100000) + 1 in int_of (cbrt (n^3 / (1/2 * INR mult)) + 1).
(** laue_fz_ori.py:506-513 / 550-557: keep the grid points in the fundamental zone, then permute ([perm] is the random
    permutation, the identity when permute=False).  [None] is the ValueError ori_in_fz_laue raises for a bad id
    (whatever the quaternions are, even for an empty grid). *)
Definition sample_fz (fit : list R) (srt : vec -> perm3) (perm : list quat -> list quat) (id : Z) (edge : nat) : option (list quat) :=
  match ori_in_fz_laue (mkQ 1 0 0 0) id with
  | None => None
  | Some _ => Some (perm (sample_reject (so3_cubochoric_grid fit srt edge) id))
  end.
(** laue_fz_ori.py:472-513 sample_ori_fz_laue; [None]: an exception (IndexError of get_laue_mult or the ValueError above) *)
Definition sample_ori_fz_laue fit srt perm (id : Z) (n : nat) : option (list quat) :=
  match get_laue_mult id with Some mult => sample_fz fit srt perm id (edge_for_count mult n) | None => None end.
(** laue_fz_ori.py:516-558 sample_ori_fz_laue_angle *)
Definition sample_ori_fz_laue_angle fit srt perm (id : Z) (res : R) : option (list quat) :=
  match get_laue_mult id with Some mult => sample_fz fit srt perm id (edge_for_angle mult res) | None => None end.
