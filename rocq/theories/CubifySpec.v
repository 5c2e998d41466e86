(* The surface of a set of voxels. *)
From Verif Require Import Base RBase Geom FaceAreas MeshesSpec.
Local Open Scope Z_scope.

Definition pt := (Z * Z * Z)%type.           (* a grid point, or the voxel between it and the next *)
Definition tri := (pt * pt * pt)%type.
Definition plus (p q : pt) : pt := let '(x, y, z) := p in let '(u, v, w) := q in (x + u, y + v, z + w).
Definition minus (p q : pt) : pt := let '(x, y, z) := p in let '(u, v, w) := q in (x - u, y - v, z - w).
Definition cross (p q : pt) : pt := let '(x, y, z) := p in let '(u, v, w) := q in (y * w - z * v, z * u - x * w, x * v - y * u).
Definition corners (t : tri) : list pt := let '(a, b, c) := t in [a; b; c].
Definition directed {A} (t : A * A * A) : list (A * A) := let '(a, b, c) := t in [(a, b); (b, c); (c, a)].
Definition normal (t : tri) : pt := let '(a, b, c) := t in cross (minus b a) (minus c a).

Definition directions : list pt := [(1, 0, 0); (-1, 0, 0); (0, 1, 0); (0, -1, 0); (0, 0, 1); (0, 0, -1)].
(* corner c of voxel v lies on the side of v in direction s *)
Definition on_axis (v s c : Z) : Prop := (c = v \/ c = v + 1) /\ (s = 1 -> c = v + 1) /\ (s = -1 -> c = v).
Definition on_side (v s c : pt) : Prop :=
  let '(x, y, z) := v in let '(u, p, q) := s in let '(a, b, d) := c in on_axis x u a /\ on_axis y p b /\ on_axis z q d.
(* the two triangles cover the side: right triangles with corners of the square, pointing outwards,
   on both sides of a common edge *)
Definition covers (v s : pt) (t1 t2 : tri) : Prop :=
  Forall (on_side v s) (corners t1 ++ corners t2) /\ normal t1 = s /\ normal t2 = s /\
  exists p q, In (p, q) (directed t1) /\ In (q, p) (directed t2).
Definition exposed (occupied : pt -> Prop) (vs : pt * pt) : Prop :=
  In (snd vs) directions /\ occupied (fst vs) /\ ~ occupied (plus (fst vs) (snd vs)).
(* S lists the exposed sides, each once; T has two triangles for each of them *)
Inductive triangles : list (pt * pt) -> list tri -> Prop :=
| no_sides : triangles [] []
| next_side v s S t1 t2 T : covers v s t1 t2 -> triangles S T -> triangles ((v, s) :: S) (t1 :: t2 :: T).
Definition surface (occupied : pt -> Prop) (S : list (pt * pt)) (T : list tri) : Prop :=
  NoDup S /\ (forall vs, In vs S <-> exposed occupied vs) /\ triangles S T.

(* the mesh p is made of the triangles T: it has the corners of T as vertices, each once *)
Definition same_corner (P : list pt) (i : Z) (c : pt) : Prop := 0 <= i /\ nth_error P (Z.to_nat i) = Some c.
Definition same_face (P : list pt) (f : face) (t : tri) : Prop :=
  let '(i, j, k) := f in let '(a, b, c) := t in same_corner P i a /\ same_corner P j b /\ same_corner P k c.
Definition made_of (place : pt -> vec3) (T : list tri) (p : mesh) : Prop :=
  exists P, NoDup P /\ (forall c, In c P <-> exists t, In t T /\ In c (corners t)) /\
    fst p = map place P /\ Forall2 (same_face P) (snd p) T.

(* every directed edge is met as often as its reverse *)
Definition times {A} (dec : forall x y : A, {x = y} + {x <> y}) (fs : list (A * A * A)) (u v : A) : nat :=
  length (filter (fun e => if dec (fst e) u then if dec (snd e) v then true else false else false) (flat_map directed fs)).
Definition closed_oriented (fs : list face) : Prop := forall u v, times Z.eq_dec fs u v = times Z.eq_dec fs v u.

Local Open Scope R_scope.
(* voxel number i of the documented layouts: the grid locations span [-1, 1] ... *)
Definition location (size : nat) (t : R) : R := -1 + 2 * (t / (INR size - 1)).
(* ... and the cuboid of location i begins there, or has it in its middle; or the cuboids span [-1, 1] *)
Definition place_topleft (W H D : nat) (c : pt) : vec3 :=
  let '(x, y, z) := c in V3 (location W (IZR x)) (location H (IZR y)) (location D (IZR z)).
Definition place_center (W H D : nat) (c : pt) : vec3 :=
  let '(x, y, z) := c in V3 (location W (IZR x - 1 / 2)) (location H (IZR y - 1 / 2)) (location D (IZR z - 1 / 2)).
Definition place_corner (W H D : nat) (c : pt) : vec3 :=
  let '(x, y, z) := c in V3 (-1 + 2 * (IZR x / INR W)) (-1 + 2 * (IZR y / INR H)) (-1 + 2 * (IZR z / INR D)).

(* voxel (x, y, z) of a grid with D x H x W values is set *)
Definition set_voxel (D H W : nat) (value : nat -> nat -> nat -> R) (thresh : R) (p : pt) : Prop :=
  let '(x, y, z) := p in
  (0 <= x < Z.of_nat W)%Z /\ (0 <= y < Z.of_nat H)%Z /\ (0 <= z < Z.of_nat D)%Z /\ thresh <= value (Z.to_nat z) (Z.to_nat y) (Z.to_nat x).
Definition value_at {F} (value : nat -> nat -> nat -> F) (p : pt) : F := let '(x, y, z) := p in value (Z.to_nat z) (Z.to_nat y) (Z.to_nat x).
