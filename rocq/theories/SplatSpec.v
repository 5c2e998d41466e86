(* Votes of points for the voxels of a grid. *)
From Coq Require Import ZArith Reals.
From Verif Require Import Base RBase Geom.
Local Open Scope R_scope.

(* Position of the coordinate p in [-1, 1] among the voxels 0 .. g-1 of an axis: the ends of the
   interval are the first and the last voxel, or (without align_corners) their outer borders. *)
Definition location (align : bool) (g : Z) (p : R) : R :=
  if align then (p + 1) / 2 * (IZR g - 1) else (p + 1) / 2 * IZR g - 1 / 2.
Definition axes (align : bool) (grid : Z * Z * Z) (p : vec3) : R * R * R :=
  let '(gz, gy, gx) := grid in (location align gz (z3 p), location align gy (y3 p), location align gx (x3 p)).
Definition inside (grid c : Z * Z * Z) : Prop :=
  let '(gz, gy, gx) := grid in let '(z, y, x) := c in (0 <= z < gz /\ 0 <= y < gy /\ 0 <= x < gx)%Z.
(* all cells of the grid *)
Definition all_cells (grid : Z * Z * Z) : list (Z * Z * Z) :=
  let '(gz, gy, gx) := grid in let r n := map Z.of_nat (seq 0 (Z.to_nat n)) in list_prod (list_prod (r gz) (r gy)) (r gx).

(* the trilinear weight: a product of tent functions *)
Definition tent (t : R) : R := Rmax 0 (1 - Rabs t).
Definition tri_weight (l : R * R * R) (c : Z * Z * Z) : R :=
  let '(lz, ly, lx) := l in let '(z, y, x) := c in tent (lz - IZR z) * tent (ly - IZR y) * tent (lx - IZR x).
(* the nearest integer; of two equally near ones that farther from zero *)
Definition is_nearest (l : R) (x : Z) : Prop := Rabs (l - IZR x) <= 1 / 2 /\ (Rabs (l - IZR x) = 1 / 2 -> Rabs l < Rabs (IZR x)).
Definition nearest_cell (l : R * R * R) (c : Z * Z * Z) : Prop :=
  let '(lz, ly, lx) := l in let '(z, y, x) := c in is_nearest lz z /\ is_nearest ly y /\ is_nearest lx x.
(* w is the vote of a point at l for voxel c *)
Definition vote (splat : bool) (l : R * R * R) (c : Z * Z * Z) (w : R) : Prop :=
  if splat then w = tri_weight l c else (nearest_cell l c /\ w = 1) \/ (~ nearest_cell l c /\ w = 0).
(* where the splatting code works as documented: not for locations in (-2, -1) and (-1, 0) *)
Definition regular (l : R) : Prop := 0 <= l \/ l = -1 \/ l <= -2.
Definition regular3 (l : R * R * R) : Prop := let '(a, b, c) := l in regular a /\ regular b /\ regular c.
(* sum over the points that are not masked out *)
Definition over_points (P : nat) (mask : nat -> R) (f : nat -> R) : R := sumf P (fun i => if Reqb (mask i) 0 then 0 else f i).

(* ---- for the backward pass ---- *)
(* what a gradient assigns to the volumes of one batch element *)
Definition pairing (dims : Z * Z * Z) (C : nat) (gd : Z * Z * Z -> R) (gf : nat -> Z * Z * Z -> R) (v : option nat -> Z * Z * Z -> R) : R :=
  rsum (map (fun c => gd c * v None c + sumf C (fun k => gf k c * v (Some k) c)) (all_cells dims)).
Inductive axis := AxisX | AxisY | AxisZ.
Definition coord (a : axis) (p : vec3) : R := match a with AxisX => x3 p | AxisY => y3 p | AxisZ => z3 p end.
Definition put (a : axis) (p : vec3) (t : R) : vec3 :=
  match a with AxisX => V3 t (y3 p) (z3 p) | AxisY => V3 (x3 p) t (z3 p) | AxisZ => V3 (x3 p) (y3 p) t end.
Definition along (a : axis) {T} (c : T * T * T) : T := let '(z, y, x) := c in match a with AxisX => x | AxisY => y | AxisZ => z end.
Definition replaced {T} (f : nat -> nat -> T) (b i : nat) (x : T) : nat -> nat -> T :=
  fun b' i' => if (Nat.eqb b' b && Nat.eqb i' i)%bool then x else f b' i'.
Definition not_integer (r : R) : Prop := forall k : Z, r <> IZR k.

(* ---- for the Python path, which rounds halves to even ---- *)
Definition is_nearest_even (l : R) (x : Z) : Prop := Rabs (l - IZR x) <= 1 / 2 /\ (Rabs (l - IZR x) = 1 / 2 -> Z.even x = true).
Definition nearest_even_cell (l : R * R * R) (c : Z * Z * Z) : Prop :=
  let '(lz, ly, lx) := l in let '(z, y, x) := c in is_nearest_even lz z /\ is_nearest_even ly y /\ is_nearest_even lx x.
Definition vote_even (splat : bool) (l : R * R * R) (c : Z * Z * Z) (w : R) : Prop :=
  if splat then w = tri_weight l c else (nearest_even_cell l c /\ w = 1) \/ (~ nearest_even_cell l c /\ w = 0).

(* ---- the result ---- *)
(* W b i c is the vote of point i of cloud b for voxel c; voxels outside the grid of a cloud get none *)
Definition all_votes (v : bool -> R * R * R -> Z * Z * Z -> R -> Prop) (N P : nat) (splat align : bool)
    (grid : nat -> Z * Z * Z) (pts : nat -> nat -> vec3) (W : nat -> nat -> Z * Z * Z -> R) : Prop :=
  forall b i c, (b < N)%nat -> (i < P)%nat ->
  (inside (grid b) c -> v splat (axes align (grid b) (pts b i)) c (W b i c)) /\ (~ inside (grid b) c -> W b i c = 0).
(* the densities D grow by the votes, the features F by the votes times the features of the points,
   and are then divided by div of the density *)
Definition accumulates (N P C : nat) (dims : Z * Z * Z) (W : nat -> nat -> Z * Z * Z -> R) (mask : nat -> nat -> R)
    (pf : nat -> nat -> nat -> R) (dens : nat -> Z * Z * Z -> R) (feats : nat -> nat -> Z * Z * Z -> R) (div : R -> R)
    (F : nat -> nat -> Z * Z * Z -> R) (D : nat -> Z * Z * Z -> R) : Prop :=
  forall b c, (b < N)%nat -> inside dims c ->
  D b c = dens b c + over_points P (mask b) (fun i => W b i c) /\
  forall k, (k < C)%nat -> F b k c = (feats b k c + over_points P (mask b) (fun i => W b i c * pf b i k)) / div (D b c).
Definition unmasked (mask : option (nat -> nat -> R)) : nat -> nat -> R := match mask with None => fun _ _ => 1 | Some m => m end.
(* no coordinate lies in the middle between two voxels *)
Definition no_tie (l : R * R * R) : Prop := let '(a, b, c) := l in forall x : Z, Rabs (a - IZR x) <> 1 / 2 /\ Rabs (b - IZR x) <> 1 / 2 /\ Rabs (c - IZR x) <> 1 / 2.
