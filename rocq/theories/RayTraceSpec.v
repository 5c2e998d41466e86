(* Distances along a ray. *)
From Coq Require Import Reals List.
From Verif Require Import Base RBase Geom RayTrace.
Import ListNotations.
Local Open Scope R_scope.

Definition length3 (v : vec3) : R := sqrt (x3 v * x3 v + y3 v * y3 v + z3 v * z3 v).
Definition along (r : ray) (t : R) : vec3 :=
  V3 (x3 (origin r) + t * x3 (direction r)) (y3 (origin r) + t * y3 (direction r)) (z3 (origin r) + t * z3 (direction r)).
(* f changes no faster than distance, as a signed distance does *)
Definition distance_like (f : vec3 -> R) : Prop :=
  forall p q, Rabs (f p - f q) <= length3 (V3 (x3 p - x3 q) (y3 p - y3 q) (z3 p - z3 q)).
Definition unit_ray (r : ray) : Prop := length3 (direction r) = 1.
(* an index of a smallest entry *)
Definition picks_minimum (argmin : list R -> nat) : Prop :=
  forall l, l <> [] -> (argmin l < length l)%nat /\ forall x, In x l -> nth (argmin l) l 0 <= x.
(* the k-th of n samples from a to b *)
Definition sample (a b : R) (n k : nat) : R := a + INR k / INR (n - 1) * (b - a).
