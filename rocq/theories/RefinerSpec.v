(* Words for depths along a ray. *)
From Coq Require Import Reals List Permutation.
From Verif Require Import Base RBase Geom Implicit ImplicitSpec Frustum Refiner.
Import ListNotations.
Local Open Scope R_scope.

(* The depths a bundle stores: its bins, or its lengths if it has none. *)
Definition depths (b : bundle) : list R :=
  match b_bins b with Some z => z | None => match b_own b with Some z => z | None => [] end end.
Definition uses_bins (b : bundle) : bool := match b_bins b with Some _ => true | None => false end.
(* A bundle that can be refined: enough sorted depths. *)
Definition refinable (b : bundle) : Prop :=
  nondecreasing (depths b) /\ ((if uses_bins b then 2 else 3) <= length (depths b))%nat.
Definition same_ray (b b' : bundle) : Prop :=
  b_origin b' = b_origin b /\ b_direction b' = b_direction b /\ b_radius b' = b_radius b /\
  uses_bins b' = uses_bins b.
(* The number of points where the function is evaluated. *)
Definition points (b : bundle) : nat := (length (depths b) - if uses_bins b then 1 else 0)%nat.
Definition extra (c : refiner) (b : bundle) : nat := (n_pts c + if uses_bins b then 1 else 0)%nat.
