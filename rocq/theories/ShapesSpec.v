(* What a closed surface is, and the shapes that utils/ico_sphere.py and utils/torus.py promise. *)
From Verif Require Import Base RBase Geom FaceAreas FaceAreasSpec MeshesSpec.
Local Open Scope R_scope.

(* the sides of a face in the direction in which the face runs through its corners *)
Definition rim (f : face) : list (Z * Z) := let '(a, b, c) := f in [(a, b); (b, c); (c, a)].
Definition directed (fs : list face) : list (Z * Z) := flat_map rim fs.
(* Every side has two different ends, belongs to one face only in its direction, and to another one in
   the opposite direction: there is no boundary, and neighbours have the same orientation. *)
Definition closed_surface (fs : list face) : Prop :=
  NoDup (directed fs) /\
  forall u v, In (u, v) (directed fs) -> u <> v /\ In (v, u) (directed fs).
(* face f, read from any of its corners *)
Definition same_face (f g : face) : Prop :=
  let '(a, b, c) := f in g = (a, b, c) \/ g = (b, c, a) \/ g = (c, a, b).
Definition flip (f : face) : face := let '(a, b, c) := f in (a, c, b).
(* no face is there with both orientations *)
Definition one_sided (fs : list face) : Prop :=
  forall f g, In f fs -> In g fs -> ~ same_face (flip f) g.

(* number of vertices - number of edges + number of faces *)
Definition euler (p : mesh) (E : list (Z * Z)) : Z :=
  (Z.of_nat (length (fst p)) - Z.of_nat (length E) + Z.of_nat (length (snd p)))%Z.

(* seen from the origin, the corners of the face run counterclockwise when looking from outside *)
Definition outward (vs : list vec3) (f : face) : Prop :=
  let '(a, b, c) := f in 0 < dot3 (at_ vs a) (tri_cross (at_ vs a) (at_ vs b) (at_ vs c)).

(* v has distance r from the circle around the z axis with radius R in the plane z = 0 *)
Definition on_torus (r R : R) (v : vec3) : Prop :=
  exists phi, let c := V3 (R * cos phi) (R * sin phi) 0 in
    x3 v * sin phi = y3 v * cos phi /\ norm3 (sub3 v c) = Rabs r.
