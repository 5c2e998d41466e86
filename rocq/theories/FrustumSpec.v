(* A point of a cone around a ray: at distance t along the ray, off the axis by s in the
   direction at angle a between the unit vectors u and v, which are perpendicular to the ray. *)
From Coquelicot Require Import Coquelicot.
From Verif Require Import Base RBase Geom.
Local Open Scope R_scope.

Definition frame (d u v : vec3) : Prop :=
  dot3 u u = 1 /\ dot3 v v = 1 /\ dot3 u v = 0 /\ dot3 u d = 0 /\ dot3 v d = 0.
Definition cone_point (o d u v : vec3) (t s a : R) : vec3 :=
  add3 (add3 o (scal3 t d)) (add3 (scal3 (s * cos a) u) (scal3 (s * sin a) v)).
(* The integral over the part of the cone between t0 and t1, whose radius at t is r * t, in
   cylinder coordinates. *)
Definition over_cone (r t0 t1 : R) (f : R -> R -> R -> R) : R :=
  RInt (fun t => RInt (fun s => RInt (fun a => f t s a * s) 0 (2 * PI)) 0 (r * t)) t0 t1.
(* The average of f over that part. *)
Definition cone_average (r t0 t1 : R) (f : R -> R -> R -> R) : R :=
  over_cone r t0 t1 f / over_cone r t0 t1 (fun _ _ _ => 1).
