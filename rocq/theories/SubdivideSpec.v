(* What subdividing one mesh means. *)
From Verif Require Import Base RBase Geom FaceAreas FaceAreasSpec MeshesSpec.
Local Open Scope R_scope.

Definition midpoint (u v : vec3) : vec3 := scal3 (1 / 2) (add3 u v).
(* one new vertex for every edge, with the features of its end points averaged *)
Definition split_edges {F} (d : F) (mean : F -> F -> F) (rows : list F) (E : list (Z * Z)) : list F :=
  rows ++ map (fun e => mean (nth (Z.to_nat (fst e)) rows d) (nth (Z.to_nat (snd e)) rows d)) E.

(* the four faces made of a face (a, b, c) whose edges opposite to a, b, c have the numbers i, j, k;
   the middle of edge number i is vertex V + i *)
Definition at_a (V : Z) (q : face * (Z * Z * Z)) : face := let '((a, b, c), (i, j, k)) := q in (a, V + k, V + j)%Z.
Definition at_b (V : Z) (q : face * (Z * Z * Z)) : face := let '((a, b, c), (i, j, k)) := q in (b, V + i, V + k)%Z.
Definition at_c (V : Z) (q : face * (Z * Z * Z)) : face := let '((a, b, c), (i, j, k)) := q in (c, V + j, V + i)%Z.
Definition inner (V : Z) (q : face * (Z * Z * Z)) : face := let '((a, b, c), (i, j, k)) := q in (V + i, V + j, V + k)%Z.

(* E: every edge of the mesh p once. t: the numbers of the edges of every face *)
Definition subdivided (p : mesh) (E : list (Z * Z)) (p' : mesh) : Prop :=
  edge_list (snd p) E /\
  fst p' = split_edges (V3 0 0 0) midpoint (fst p) E /\
  exists t, Forall2 (opposite_edges E) (snd p) t /\
    let V := Z.of_nat (length (fst p)) in let q := combine (snd p) t in
    snd p' = map (at_a V) q ++ map (at_b V) q ++ map (at_c V) q ++ map (inner V) q.

(* the corner points of a face *)
Definition points (vs : list vec3) (f : face) : vec3 * vec3 * vec3 := let '(a, b, c) := f in (at_ vs a, at_ vs b, at_ vs c).

(* mesh number n of the result comes from mesh number n alone *)
Inductive subdivided_batch : list mesh -> list (list (Z * Z)) -> list mesh -> Prop :=
| no_meshes : subdivided_batch [] [] []
| next_mesh p b E Es p' b' : subdivided p E p' -> subdivided_batch b Es b' -> subdivided_batch (p :: b) (E :: Es) (p' :: b').
