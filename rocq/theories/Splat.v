(* Model of csrc/points_to_volumes/points_to_volumes_cpu.cpp, points_to_volumes.cu and
   ops/points_to_volumes.py. Scalars are exact reals; int64 and long are Z without overflow. *)
From Coq Require Import ZArith Reals.
From Verif Require Import Base RBase Geom Threads.
Local Open Scope R_scope.

Definition cell := (Z * Z * Z)%type.                        (* [z][y][x] *)
(* an addition to cell c of volume_densities (None) or of feature k of volume_features (Some k)
   of batch element b *)
Definition write := (nat * option nat * cell * R)%type.
Definition volumes := nat -> option nat -> cell -> R.

Definition cell_dec (a b : cell) : {a = b} + {a <> b}.
Proof. repeat decide equality. Defined.
Definition kind_dec (a b : option nat) : {a = b} + {a <> b}.
Proof. repeat decide equality. Defined.

(* std::lround: to the nearest integer, halves away from zero *)
Definition lround (r : R) : Z := if Rltb r 0 then (- Int_part (- r + / 2))%Z else Int_part (r + / 2).
(* std::modf: the integral part, with the sign of the argument *)
Definition trunc (r : R) : Z := if Rltb r 0 then (- Int_part (- r))%Z else Int_part r.

(* cpp:62-63, 116-117, 133-134 *)
Definition loc (align : bool) (g : Z) (p : R) : R :=
  (p + 1) * / 2 * (IZR g - (if align then 1 else 0)) - (if align then 0 else / 2).

(* cpp:35-45 *)
Definition eight_directions : list (bool * bool * bool) :=
  [(false, false, false); (false, false, true); (false, true, false); (false, true, true);
   (true, false, false); (true, false, true); (true, true, false); (true, true, true)].

(* cpp:99-104: the tests at the start of increment_location *)
Definition in_grid (grid : cell) (c : cell) : bool :=
  let '(gz, gy, gx) := grid in let '(z, y, x) := c in
  negb ((gx <=? x) || (gy <=? y) || (gz <=? z))%Z && negb ((x <? 0) || (y <? 0) || (z <? 0))%Z.

(* cpp:130-148: one of the eight locations and its weight *)
Definition up (b : bool) : Z := if b then 1%Z else 0%Z.
Definition part (b : bool) (r : R) : R := if b then r else 1 - r.
Definition direction (align : bool) (grid : cell) (p : vec3) (d : bool * bool * bool) : cell * R :=
  let '(gz, gy, gx) := grid in let '(ux, uy, uz) := d in
  let lx := loc align gx (x3 p) in let ly := loc align gy (y3 p) in let lz := loc align gz (z3 p) in
  let rx := lx - IZR (trunc lx) in let ry := ly - IZR (trunc ly) in let rz := lz - IZR (trunc lz) in
  ((trunc lz + up uz, trunc ly + up uy, trunc lx + up ux)%Z, part ux rx * part uy ry * part uz rz).
(* cpp:113-150: the calls of increment_location that reach the volume *)
Definition increments (align splat : bool) (grid : cell) (p : vec3) : list (cell * R) :=
  let '(gz, gy, gx) := grid in
  filter (fun cw => in_grid grid (fst cw))
    (if splat then map (direction align grid p) eight_directions
     else [((lround (loc align gz (z3 p)), lround (loc align gy (y3 p)), lround (loc align gx (x3 p))), 1)]).

Section Kernel.
(* the shapes (minibatch, P, n_features) and (D, H, W), and the tensors *)
Variables (N P C : nat) (dims : cell).
Variable points_3d : nat -> nat -> vec3.
Variable points_features : nat -> nat -> nat -> R.
Variable grid_sizes : nat -> cell.
Variable mask : nat -> nat -> R.
Variable point_weight : R.
Variables (align splat : bool).

(* cpp:83-151: everything one point adds, in order *)
Definition point_writes (b i : nat) : list write :=
  if Reqb (mask b i) 0 then []
  else flat_map (fun cw => (b, None, fst cw, snd cw * point_weight)
                           :: map (fun k => (b, Some k, fst cw, points_features b i k * snd cw * point_weight)) (seq 0 C))
         (increments align splat (grid_sizes b) (points_3d b i)).

(* The accessors do not check bounds: an addition outside the tensor is an error of the caller *)
Definition add_to (v : volumes) (w : write) : result volumes :=
  let '(b, k, c, a) := w in
  if in_grid dims c then
    Ok (fun b' k' c' => if (Nat.eqb b b' && (if kind_dec k k' then true else false) &&
                            (if cell_dec c c' then true else false))%bool
                        then v b' k' c' + a else v b' k' c')
  else Fail EOutOfBounds.
Definition add_all (ws : list write) (v : volumes) : result volumes := rfold add_to ws v.

(* cpp:47-155 *)
Definition forward_cpu (v : volumes) : result volumes :=
  add_all (flat_map (fun b => flat_map (point_writes b) (seq 0 P)) (seq 0 N)) v.

(* cu:43-101: the points that thread (block, thread) handles, in order. fuel: one chunk per step. *)
Fixpoint chunk_loop (fuel : nat) (chunk step limit : Z) : list Z :=
  match fuel with
  | O => []
  | S f => if (chunk <? limit)%Z then chunk :: chunk_loop f (chunk + step) step limit else []
  end.
Definition thread_points (blocks threads : Z) (block thread : nat) : list (nat * nat) :=
  let chunks_per_cloud := (1 + Z.quot (Z.of_nat P - 1) threads)%Z in
  let chunks_to_do := (Z.of_nat N * chunks_per_cloud)%Z in
  flat_map (fun chunk =>
      let batch_index := Z.quot chunk chunks_per_cloud in
      let point_idx := (threads * Z.rem chunk chunks_per_cloud + Z.of_nat thread)%Z in
      if (Z.of_nat P <=? point_idx)%Z then [] else [(Z.to_nat batch_index, Z.to_nat point_idx)])
    (chunk_loop (Z.to_nat chunks_to_do) (Z.of_nat block) blocks chunks_to_do).
(* every thread's atomicAdds *)
Definition thread_writes (blocks threads : nat) : list (list write) :=
  flat_map (fun block => map (fun thread => flat_map (fun bi => point_writes (fst bi) (snd bi))
                                 (thread_points (Z.of_nat blocks) (Z.of_nat threads) block thread)) (seq 0 threads)) (seq 0 blocks).

(* cpp:185-317: the gradients of one point.
   Simplification: the gradient volumes are functions, read only at cells inside the grid. *)
Variable grad_volume_densities : nat -> cell -> R.
Variable grad_volume_features : nat -> nat -> cell -> R.
(* 233-256 *)
Definition grad_point_feature (b i k : nat) : R :=
  if Reqb (mask b i) 0 then 0
  else fold_left (fun acc cw => acc + grad_volume_features b k (fst cw) * snd cw * point_weight)
         (increments align splat (grid_sizes b) (points_3d b i)) 0.
(* 274-312 *)
Definition grad_direction (b i : nat) (acc : vec3) (d : bool * bool * bool) : vec3 :=
  let grid := grid_sizes b in let p := points_3d b i in
  let '(gz, gy, gx) := grid in let '(ux, uy, uz) := d in
  let lx := loc align gx (x3 p) in let ly := loc align gy (y3 p) in let lz := loc align gz (z3 p) in
  let wx := part ux (lx - IZR (trunc lx)) in let wy := part uy (ly - IZR (trunc ly)) in let wz := part uz (lz - IZR (trunc lz)) in
  let c := (trunc lz + up uz, trunc ly + up uy, trunc lx + up ux)%Z in
  let so := if align then 1 else 0 in
  let sign u := if u : bool then 1 else -1 in
  if in_grid grid c then
    let source_gradient := fold_left (fun acc k => acc + points_features b i k * grad_volume_features b k c) (seq 0 C) (grad_volume_densities b c) in
    V3 (x3 acc + source_gradient * sign ux * wy * wz * / 2 * (IZR gx - so) * point_weight)
       (y3 acc + source_gradient * sign uy * wx * wz * / 2 * (IZR gy - so) * point_weight)
       (z3 acc + source_gradient * sign uz * wx * wy * / 2 * (IZR gz - so) * point_weight)
  else acc.
Definition grad_point (b i : nat) : vec3 :=
  if Reqb (mask b i) 0 then V3 0 0 0
  else if splat then fold_left (grad_direction b i) eight_directions (V3 0 0 0) else V3 0 0 0.
End Kernel.

(* ---- ops/points_to_volumes.py: the pure Python path ---- *)
(* torch.round: to the nearest integer, halves to the even one *)
Definition round_even (r : R) : Z :=
  let f := Int_part (r + / 2) in if Reqb (r + / 2) (IZR f) then (if Z.even f then f else f - 1)%Z else f.
Definition cell_max (a b : cell) : cell :=
  let '(a1, a2, a3) := a in let '(b1, b2, b3) := b in (Z.max a1 b1, Z.max a2 b2, Z.max a3 b3).
Definition cell_prod (a : cell) : Z := let '(a1, a2, a3) := a in (a1 * a2 * a3)%Z.
(* the position of [z][y][x] in a contiguous tensor of the given shape *)
Definition flat_index (shape : cell) (c : cell) : Z :=
  let '(_, h, w) := shape in let '(z, y, x) := c in ((z * h + y) * w + x)%Z.
Definition flat_volumes := nat -> option nat -> Z -> R.

Section Python.
Variables (N P C : nat) (dims : cell).
Variable points_3d : nat -> nat -> vec3.
Variable points_features : nat -> nat -> nat -> R.
Variable grid_sizes : nat -> cell.
Variable mask : option (nat -> nat -> R).
(* the outcome of random_(0, n_voxels), 603 and 746 *)
Variable rand_idx : nat -> nat -> Z.
Definition n_voxels : Z := cell_prod dims.

(* 493-525 (the checks of the channel counts hold by construction here) *)
Definition py_check : result unit :=
  match map grid_sizes (seq 0 N) with
  | [] => Fail EIndex                                       (* max of an empty dimension *)
  | g :: gs => if (n_voxels <? cell_prod (fold_left cell_max gs g))%Z then Fail EValue else Ok tt
  end.
(* 587-590, 722-724; align_corners is not passed on *)
Definition py_loc (g : Z) (p : R) : R := (p + 1) * / 2 * (IZR g - 1).
Definition bit (b : bool) : Z := if b then 1%Z else 0%Z.
(* 621-628, 734-741 *)
Definition py_valid (grid c : cell) : bool :=
  let '(gz, gy, gx) := grid in let '(z, y, x) := c in
  ((0 <=? x) && (x <? gx) && (0 <=? y) && (y <? gy) && (0 <=? z) && (z <? gz))%Z.
(* 606-641: the vote of a point for one of the eight cells: linear index and weight *)
Definition py_vote (b i : nat) (d : bool * bool * bool) : Z * R :=
  let '(gz, gy, gx) := grid_sizes b in let p := points_3d b i in let '(dx, dy, dz) := d in
  let lx := py_loc gx (x3 p) in let ly := py_loc gy (y3 p) in let lz := py_loc gz (z3 p) in
  let X := Int_part lx in let Y := Int_part ly in let Z_ := Int_part lz in
  let wgt u l (f : Z) := IZR (1 - bit u) + IZR (2 * bit u - 1) * (l - IZR f) in
  let w := wgt dx lx X * wgt dy ly Y * wgt dz lz Z_ in
  let c := (Z_ + bit dz, Y + bit dy, X + bit dx)%Z in
  let valid := py_valid (grid_sizes b) c in
  ((flat_index (grid_sizes b) c * bit valid + rand_idx b i * (1 - bit valid))%Z,
   let w_valid := w * IZR (bit valid) in match mask with None => w_valid | Some m => w_valid * m b i end).
(* 722-754 *)
Definition py_round_vote (b i : nat) : Z * R :=
  let '(gz, gy, gx) := grid_sizes b in let p := points_3d b i in
  let c := (round_even (py_loc gz (z3 p)), round_even (py_loc gy (y3 p)), round_even (py_loc gx (x3 p))) in
  (* valid * mask.long() *)
  let valid := match mask with None => bit (py_valid (grid_sizes b) c) | Some m => (bit (py_valid (grid_sizes b) c) * trunc (m b i))%Z end in
  ((flat_index (grid_sizes b) c * valid + rand_idx b i * (1 - valid))%Z, IZR valid).
(* scatter_add_, which raises on an index outside the tensor *)
Definition py_add (v : flat_volumes) (w : nat * option nat * Z * R) : result flat_volumes :=
  let '(b, k, j, a) := w in
  if ((0 <=? j) && (j <? n_voxels))%Z then
    Ok (fun b' k' j' => if (Nat.eqb b b' && (if kind_dec k k' then true else false) && Z.eqb j j')%bool then v b' k' j' + a else v b' k' j')
  else Fail ERuntime.
(* 646, 655, 757, 764: one scatter into the densities, one into the features *)
Definition py_scatter (vote : nat -> nat -> Z * R) : list (nat * option nat * Z * R) :=
  flat_map (fun b => map (fun i => (b, None, fst (vote b i), snd (vote b i))) (seq 0 P)) (seq 0 N) ++
  flat_map (fun b => flat_map (fun k => map (fun i => (b, Some k, fst (vote b i), snd (vote b i) * points_features b i k)) (seq 0 P)) (seq 0 C)) (seq 0 N).
(* 432-490, 528-662, 665-771. The features are divided by the clamped density. *)
Definition py_directions : list (bool * bool * bool) := eight_directions.    (* 606-614 *)
Definition py_sums (splat : bool) (v : flat_volumes) : result flat_volumes :=
  _ <- py_check ;;
  if (n_voxels <=? 0)%Z then Fail ERuntime                                   (* random_ *)
  else rfold py_add (if splat then flat_map (fun d => py_scatter (fun b i => py_vote b i d)) py_directions
                     else py_scatter py_round_vote) v.
End Python.

(* 305-429: add_points_features_to_volume_densities_features, with a valid mode and grid_sizes.
   The volumes are functions of the cell; the result is (features, densities). *)
Definition out := ((nat -> nat -> cell -> R) * (nat -> cell -> R))%type.
Definition scaled (rescale : bool) (low : R) (f : nat -> nat -> cell -> R) (d : nat -> cell -> R) : out :=
  ((fun b k c => if rescale then f b k c / Rmax (d b c) low else f b k c), d).
Definition joined_volumes (dens : nat -> cell -> R) (feats : nat -> nat -> cell -> R) : volumes :=
  fun b k c => match k with None => dens b c | Some k => feats b k c end.
Definition add_points (N P C : nat) (dims : cell) (python : bool) (pts : nat -> nat -> vec3) (pf : nat -> nat -> nat -> R)
    (dens : nat -> cell -> R) (feats : option (nat -> nat -> cell -> R)) (splat : bool) (min_weight : R)
    (mask : option (nat -> nat -> R)) (grid : nat -> cell) (rescale : bool) (rand_idx : nat -> nat -> Z) (align : bool) : result out :=
  let low := if splat then min_weight else 1 in
  if python then
    let f0 := match feats with None => fun _ _ _ => 0 | Some f => f end in
    (* view(ba, -1): the flattened volume; entry j belongs to the cell with this index *)
    let cell_of j := let '(_, h, w) := dims in (j / (h * w), j / w mod h, j mod w)%Z in
    v <- py_sums N P C dims pts pf grid mask rand_idx splat (fun b k j => joined_volumes dens f0 b k (cell_of j)) ;;
    (* the division is not optional here *)
    Ok (scaled true low (fun b k c => v b (Some k) (flat_index dims c)) (fun b c => v b None (flat_index dims c)))
  else
    match feats with
    | None => Fail EAttr                                    (* 105: volume_features.dtype *)
    | Some f =>
        let m := match mask with None => fun _ _ => 1 | Some m => m end in
        v <- forward_cpu N P C dims pts pf grid m 1 align splat (joined_volumes dens f) ;;
        Ok (scaled rescale low (fun b k c => v b (Some k) c) (fun b c => v b None c))
    end.
