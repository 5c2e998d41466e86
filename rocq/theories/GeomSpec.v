(* Plane and space geometry used to state the rasterizer's numeric properties. *)
From Verif Require Import Base RBase Geom.
Local Open Scope R_scope.

(* squared distances and points of segments / triangles *)
Definition sqd2 (a b : vec2) : R := (x2 a - x2 b) ^ 2 + (y2 a - y2 b) ^ 2.
Definition sqd3 (a b : vec3) : R := (x3 a - x3 b) ^ 2 + (y3 a - y3 b) ^ 2 + (z3 a - z3 b) ^ 2.
Definition on_seg2 (q a b : vec2) : Prop :=
  exists t, 0 <= t <= 1 /\ x2 q = (1 - t) * x2 a + t * x2 b /\ y2 q = (1 - t) * y2 a + t * y2 b.
Definition on_seg3 (q a b : vec3) : Prop :=
  exists t, 0 <= t <= 1 /\ x3 q = (1 - t) * x3 a + t * x3 b /\ y3 q = (1 - t) * y3 a + t * y3 b /\
            z3 q = (1 - t) * z3 a + t * z3 b.
Definition in_tri3 (q v0 v1 v2 : vec3) : Prop :=
  exists a b c, 0 <= a /\ 0 <= b /\ 0 <= c /\ a + b + c = 1 /\
    x3 q = a * x3 v0 + b * x3 v1 + c * x3 v2 /\
    y3 q = a * y3 v0 + b * y3 v1 + c * y3 v2 /\
    z3 q = a * z3 v0 + b * z3 v1 + c * z3 v2.
(* strictly inside a 2d triangle *)
Definition in_tri2_strict (q v0 v1 v2 : vec2) : Prop :=
  exists a b c, 0 < a /\ 0 < b /\ 0 < c /\ a + b + c = 1 /\
    x2 q = a * x2 v0 + b * x2 v1 + c * x2 v2 /\
    y2 q = a * y2 v0 + b * y2 v1 + c * y2 v2.
(* d is the minimum of f over the points satisfying P *)
Definition is_min {A} (P : A -> Prop) (f : A -> R) (d : R) : Prop :=
  (exists q, P q /\ f q = d) /\ forall q, P q -> d <= f q.
(* twice the signed area of a 2d triangle *)
Definition signed_area2 (a b c : vec2) : R :=
  (x2 a * y2 b - x2 b * y2 a) + (x2 b * y2 c - x2 c * y2 b) + (x2 c * y2 a - x2 a * y2 c).
(* g is the gradient of F at v *)
Definition is_grad2 (F : vec2 -> R) (v g : vec2) : Prop :=
  derivable_pt_lim (fun t => F (V2 t (y2 v))) (x2 v) (x2 g) /\
  derivable_pt_lim (fun t => F (V2 (x2 v) t)) (y2 v) (y2 g).
Definition is_grad3 (F : vec3 -> R) (v g : vec3) : Prop :=
  derivable_pt_lim (fun t => F (V3 t (y3 v) (z3 v))) (x3 v) (x3 g) /\
  derivable_pt_lim (fun t => F (V3 (x3 v) t (z3 v))) (y3 v) (y3 g) /\
  derivable_pt_lim (fun t => F (V3 (x3 v) (y3 v) t)) (z3 v) (z3 g).
