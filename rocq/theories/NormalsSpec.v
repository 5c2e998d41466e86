(* Vocabulary for the statements about estimated normals. *)
From Verif Require Import Base RBase Geom LinAlg KnnSpec Alignment AlignmentSpec Spectral SymeigSpec.
Local Open Scope R_scope.

(* qs are the K points of the cloud nearest to p, in order of their distance *)
Definition neighbourhood (K : nat) (pts : list vec3) (p : vec3) (qs : list vec3) : Prop :=
  exists ds js, is_knn (fun j => sqdist p (nth j pts vzero)) (length pts) K ds js /\
    qs = map (fun j => nth j pts vzero) js.
(* mean squared distance of the points qs from the plane with unit normal u through their centroid *)
Definition centroid (qs : list vec3) : vec3 :=
  let n := INR (length qs) in
  V3 (rsum (map x3 qs) / n) (rsum (map y3 qs) / n) (rsum (map z3 qs) / n).
Definition thickness (qs : list vec3) (u : vec3) : R :=
  rsum (map (fun q => (dot3 u (sub3 q (centroid qs))) ^ 2) qs) / INR (length qs).
(* how many of the points qs lie strictly on the side of p to which u points *)
Definition in_front (p : vec3) (qs : list vec3) (u : vec3) : nat :=
  length (filter (fun q => Rltb 0 (dot3 u (sub3 q p))) qs).
Definition opposite (v : vec3) : vec3 := scal3 (-1) v.
(* the same eigenvectors with the opposite signs *)
Definition reversed (eigh : mat3 -> vec3 * (vec3 * vec3 * vec3)) (a : mat3) : vec3 * (vec3 * vec3 * vec3) :=
  let '(e, (v1, v2, v3)) := eigh a in (e, (opposite v1, opposite v2, opposite v3)).
(* all points of the cloud lie in one plane *)
Definition flat (pts : list vec3) : Prop :=
  exists u c, dot3 u u = 1 /\ forall q, In q pts -> dot3 u q = c.

(* frame (n, y, z) and curvatures e of a neighbourhood qs: the plane through the centroid with
   normal n is the closest to the points, the one with normal z the farthest, and the curvatures
   are the mean squared distances from the three planes *)
Record principal (qs : list vec3) (e n y z : vec3) : Prop := {
  least_curvature : x3 e = thickness qs n;
  middle_curvature : y3 e = thickness qs y;
  largest_curvature : z3 e = thickness qs z;
  ascending : x3 e <= y3 e <= z3 e;
  extremal : forall u, dot3 u u = 1 -> thickness qs n <= thickness qs u <= thickness qs z }.
(* more than half of the K points qs lie strictly on one side of p *)
Definition has_majority (K : nat) (p : vec3) (qs : list vec3) (u : vec3) : Prop :=
  (K < 2 * in_front p qs u)%nat \/ (K < 2 * in_front p qs (opposite u))%nat.
