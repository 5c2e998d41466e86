(* Vocabulary for the statements about rotation conversions. *)
From Verif Require Import Base RBase Geom LinAlg Transform Rotation.
Local Open Scope R_scope.

(* a proper rotation matrix *)
Definition rotation (m : mat3) : Prop := mul3 m (tr3 m) = id3 /\ det3 m = 1.
Definition unit_quat (q : quat) : Prop := qw q ^ 2 + qx q ^ 2 + qy q ^ 2 + qz q ^ 2 = 1.
Definition neg_quat (q : quat) : quat := Q (- qw q) (- qx q) (- qy q) (- qz q).
Definition len (v : vec3) : R := sqrt (x3 v ^ 2 + y3 v ^ 2 + z3 v ^ 2).
(* matrix times column vector, written out *)
Definition act (m : mat3) (v : vec3) : vec3 :=
  V3 (m00 m * x3 v + m01 m * y3 v + m02 m * z3 v)
     (m10 m * x3 v + m11 m * y3 v + m12 m * z3 v)
     (m20 m * x3 v + m21 m * y3 v + m22 m * z3 v).
(* Rodrigues: turning u by angle th about the unit axis k *)
Definition turn (k : vec3) (th : R) (u : vec3) : vec3 :=
  add3 (add3 (scal3 (cos th) u) (scal3 (sin th) (cross3 k u)))
       (scal3 (dot3 k u * (1 - cos th)) k).
(* the entry whose absolute value 1 means gimbal lock for a convention *)
Definition central_entry (m : mat3) (a c : axis) : R := ment m (axis_index a) (axis_index c).
(* the part of b orthogonal to a *)
Definition perp (a b : vec3) : vec3 := sub3 b (scal3 (dot3 a b / dot3 a a) a).
(* three different axes (Tait-Bryan) rather than first = last (proper Euler) *)
Definition tait_bryan_conv (a c : axis) : bool := negb (axis_eqb a c).
(* a 4x4 matrix acting on row vectors as x |-> R x + p *)
Definition is_rigid (t : mat4) (r : mat3) (p : vec3) : Prop :=
  rotation r /\ block3 t = tr3 r /\ V3 (n30 t) (n31 t) (n32 t) = p /\
  n03 t = 0 /\ n13 t = 0 /\ n23 t = 0 /\ n33 t = 1.
