(* Surfaces of equal value on a grid of samples. *)
From Verif Require Import Base RBase Geom Marching.
Local Open Scope R_scope.

(* a field sampled at the points 0..W-1, 0..H-1, 0..D-1 *)
Definition field := nat -> nat -> nat -> R.
Definition sample (D H W : nat) (f : field) : volume := map (fun z => map (fun y => map (fun x => f x y z) (seq 0 W)) (seq 0 H)) (seq 0 D).
Definition at_point (f : field) (p : point) : R := let '(x, y, z) := p in f x y z.
Definition in_grid (D H W : nat) (p : point) : Prop := let '(x, y, z) := p in (x < W /\ y < H /\ z < D)%nat.
(* the unit segments between neighbouring grid points *)
Inductive axis := AxX | AxY | AxZ.
Definition next (a : axis) (p : point) : point :=
  let '(x, y, z) := p in match a with AxX => (S x, y, z) | AxY => (x, S y, z) | AxZ => (x, y, S z) end.
Definition link := (point * axis)%type.
Definition near (e : link) : point := fst e.
Definition far (e : link) : point := next (snd e) (fst e).
(* below the level at one end and not at the other *)
Definition crossing (D H W : nat) (f : field) (iso : R) (e : link) : Prop :=
  in_grid D H W (near e) /\ in_grid D H W (far e) /\ (at_point f (near e) < iso /\ ~ at_point f (far e) < iso \/ ~ at_point f (near e) < iso /\ at_point f (far e) < iso).
(* where the straight line between the two samples reaches the level *)
Definition along (e : link) (t : R) : vec3 := add3 (pos_of (near e)) (scal3 t (sub3 (pos_of (far e)) (pos_of (near e)))).
Definition cut (f : field) (iso : R) (e : link) : vec3 := along e ((iso - at_point f (near e)) / (at_point f (far e) - at_point f (near e))).
(* the same, but an end point itself when its sample is within the tolerance of the level *)
Definition snapped (f : field) (iso : R) (e : link) : vec3 :=
  if Rltb (Rabs (iso - at_point f (near e))) EPS then pos_of (near e)
  else if Rltb (Rabs (iso - at_point f (far e))) EPS then pos_of (far e)
  else if Rltb (Rabs (at_point f (near e) - at_point f (far e))) EPS then pos_of (near e)
  else cut f iso e.
(* the level is reached neither too close to an end nor at nearly equal values *)
Definition clear_cut (f : field) (iso : R) (e : link) : Prop :=
  let a := at_point f (near e) in let b := at_point f (far e) in
  EPS <= Rabs (iso - a) /\ EPS <= Rabs (iso - b) /\ EPS * Rabs (b - a) <= Rabs (iso - a) /\ EPS * Rabs (b - a) <= Rabs (iso - b).
(* the directed sides of triangles *)
Definition tri_sides (t : nat * nat * nat) : list (nat * nat) := let '(i, j, k) := t in [(i, j); (j, k); (k, i)].
(* both links lie in one and the same outer plane of the grid *)
Definition coord (a : axis) (p : point) : nat := let '(x, y, z) := p in match a with AxX => x | AxY => y | AxZ => z end.
Definition in_plane (a : axis) (k : nat) (e : link) : Prop := coord a (near e) = k /\ coord a (far e) = k.
Definition size (D H W : nat) (a : axis) : nat := match a with AxX => W | AxY => H | AxZ => D end.
Definition on_border (D H W : nat) (e e' : link) : Prop :=
  exists a k, (k = 0%nat \/ k = (size D H W a - 1)%nat) /\ in_plane a k e /\ in_plane a k e'.
(* in one cell of the grid *)
Definition in_cell (c : point) (e : link) : Prop :=
  forall a, (coord a c <= coord a (near e) /\ coord a (far e) <= S (coord a c))%nat.
Definition all_clear (D H W : nat) (f : field) (iso : R) : Prop := forall e, crossing D H W f iso e -> clear_cut f iso e.
(* the end of a link below the level, and the direction out of a cell through its side in a plane *)
Definition low_end (f : field) (iso : R) (e : link) : point := if Rltb (at_point f (near e)) iso then near e else far e.
Definition unit (a : axis) : vec3 := match a with AxX => V3 1 0 0 | AxY => V3 0 1 0 | AxZ => V3 0 0 1 end.
Definition outward (c : point) (a : axis) (k : nat) : vec3 := scal3 (if (k =? coord a c)%nat then -1 else 1) (unit a).
(* a triangle on three different links of one cell; where a side runs in a face of the cell, the samples below the level lie to
   its right when seen from outside the cell *)
Definition oriented_in (c : point) (f : field) (iso : R) (e e' : link) : Prop := forall a k, in_plane a k e -> in_plane a k e' ->
  dot3 (cross3 (outward c a k) (sub3 (cut f iso e') (cut f iso e))) (sub3 (pos_of (low_end f iso e)) (cut f iso e)) < 0.
Definition cell_triangle (D H W : nat) (f : field) (iso : R) (a b c : link) : Prop :=
  a <> b /\ b <> c /\ c <> a /\
  exists cell, (forall ax, S (coord ax cell) < size D H W ax)%nat /\ in_cell cell a /\ in_cell cell b /\ in_cell cell c /\
    oriented_in cell f iso a b /\ oriented_in cell f iso b c /\ oriented_in cell f iso c a.
(* a mesh of the level set: one vertex for every link that crosses the level, at the interpolated place; triangles inside cells;
   every directed side once; the reverse of a side is a side unless it runs in the outer boundary of the grid *)
Definition level_mesh (D H W : nat) (f : field) (iso : R) (verts : list vec3) (faces : list (nat * nat * nat)) : Prop :=
  exists E : list link,
    NoDup E /\ (forall e, In e E <-> crossing D H W f iso e) /\ verts = map (cut f iso) E /\
    (forall i j k, In (i, j, k) faces -> exists a b c, nth_error E i = Some a /\ nth_error E j = Some b /\ nth_error E k = Some c /\ cell_triangle D H W f iso a b c) /\
    (forall i, (i < length E)%nat -> exists t, In t (flat_map tri_sides faces) /\ fst t = i) /\
    NoDup (flat_map tri_sides faces) /\
    (forall i j a b, In (i, j) (flat_map tri_sides faces) -> nth_error E i = Some a -> nth_error E j = Some b -> (In (j, i) (flat_map tri_sides faces) <-> ~ on_border D H W a b)).
(* for any samples: some of the crossing links, snapped, and triangles with three different corners *)
Definition partial_mesh (D H W : nat) (f : field) (iso : R) (apart : vec3 -> vec3 -> Prop) (verts : list vec3) (faces : list (nat * nat * nat)) : Prop :=
  exists E : list link,
    NoDup E /\ (forall e, In e E -> crossing D H W f iso e) /\ verts = map (snapped f iso) E /\
    (forall i, (i < length E)%nat -> exists t, In t (flat_map tri_sides faces) /\ fst t = i) /\
    (forall i j k, In (i, j, k) faces -> exists a b c, nth_error E i = Some a /\ nth_error E j = Some b /\ nth_error E k = Some c /\
       (exists cell, in_cell cell a /\ in_cell cell b /\ in_cell cell c) /\
       apart (snapped f iso a) (snapped f iso b) /\ apart (snapped f iso b) (snapped f iso c) /\ apart (snapped f iso c) (snapped f iso a)).
Definition apart_by (eps : R) (p q : vec3) : Prop := eps <= Rabs (x3 p - x3 q) \/ eps <= Rabs (y3 p - y3 q) \/ eps <= Rabs (z3 p - z3 q).
(* grid coordinates scaled to [-1, 1] *)
Definition scaled (D H W : nat) (v : vec3) : vec3 := V3 (2 * x3 v / (INR W - 1) - 1) (2 * y3 v / (INR H - 1) - 1) (2 * z3 v / (INR D - 1) - 1).
