(* How much a mesh bends at its edges. *)
From Coq Require Import Permutation.
From Verif Require Import Base RBase Geom FaceAreas FaceAreasSpec MeshesSpec Laplace LaplaceSpec Consistency.
Local Open Scope R_scope.

(* where a face touches an edge: the edge, and the corner of the face opposite to it *)
Definition touch := ((Z * Z) * Z)%type.
Definition touches (f : face) : list touch := let '(a, b, c) := f in [(low_high (b, c), a); (low_high (c, a), b); (low_high (a, b), c)].
(* all pairs of entries of a list, each pair once *)
Fixpoint two_of {A} (l : list A) : list (A * A) := match l with [] => [] | x :: l => map (pair x) l ++ two_of l end.
Definition same_edge (h : touch * touch) : bool := let '(((i, j), _), ((i', j'), _)) := h in ((i =? i') && (j =? j'))%Z.
(* the hinges of a mesh: two faces that touch the same edge *)
Definition hinges (fs : list face) : list (touch * touch) := filter same_edge (two_of (flat_map touches fs)).
(* (hi - lo) x (corner - lo) *)
Definition wing (vs : list vec3) (t : touch) : vec3 := tri_cross (at_ vs (fst (fst t))) (at_ vs (snd (fst t))) (at_ vs (snd t)).
(* zero when the two faces lie flat, two when they are folded onto each other *)
Definition bend (vs : list vec3) (h : touch * touch) : R := 1 - cosine (wing vs (fst h)) (neg3 (wing vs (snd h))).
Definition consistency (b : list mesh) : R := mean (map (fun p => mean (map (bend (fst p)) (hinges (snd p)))) b).
(* the two faces lie on a common plane, on different sides of the edge, and are not smaller than the epsilon *)
Definition flat (vs : list vec3) (h : touch * touch) : Prop :=
  kEps <= norm3 (wing vs (fst h)) /\ kEps <= norm3 (wing vs (snd h)) /\ exists t, 0 < t /\ neg3 (wing vs (snd h)) = scal3 t (wing vs (fst h)).
(* faces in another order, with their corners in another order *)
Definition same_corners (f f' : face) : Prop := let '(a, b, c) := f in let '(a', b', c') := f' in Permutation [a; b; c] [a'; b'; c'].
Definition relisted (fs fs' : list face) : Prop := exists gs, Permutation fs gs /\ Forall2 same_corners gs fs'.
(* the hinge of the faces i j a and i j c *)
Definition hinge_at (i j a c : Z) : touch * touch := ((low_high (i, j), a), (low_high (i, j), c)).
