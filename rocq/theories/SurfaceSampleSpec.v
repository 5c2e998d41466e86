(* Specification vocabulary for sampling points on the faces of meshes. *)
From Verif Require Import Base RBase Geom GeomSpec FaceAreasSpec MeshesSpec PointMesh PointMeshSpec.
Local Open Scope R_scope.

(* torch.multinomial with replacement: it refuses to draw nothing and refuses rows without positive weight; otherwise every
   row gets num_samples positions of positive weight *)
Definition draws_from (row : list R) (num_samples : nat) (drawn : list nat) : Prop :=
  length drawn = num_samples /\ Forall (fun k => (k < length row)%nat /\ 0 < nth k row 0) drawn.
Definition multinomial_ok (multinomial : list (list R) -> nat -> result (list (list nat))) : Prop :=
  forall weights n, Forall (Forall (Rle 0)) weights ->
    ((0 < n)%nat /\ Forall (fun row => 0 < rsum row) weights -> exists drawn, multinomial weights n = Ok drawn /\ Forall2 (fun row => draws_from row n) weights drawn) /\
    (n = 0%nat \/ Exists (fun row => rsum row <= 0) weights -> multinomial weights n = Fail ERuntime).
(* torch.rand *)
Definition rand_ok (rand : nat -> nat -> list (list (R * R))) : Prop :=
  forall a b, length (rand a b) = a /\
    Forall (fun row => length row = b /\ Forall (fun uv => 0 <= fst uv < 1 /\ 0 <= snd uv < 1) row) (rand a b).

Definition triangle_area (t : tri) : R := let '(a, b, c) := t in norm3 (tri_cross a b c) / 2.
Definition mesh_area (p : mesh) : R := rsum (map triangle_area (faces_of p)).
(* the same combination of the corners *)
Definition at_weights (w0 w1 w2 : R) (t : tri) : vec3 :=
  let '(a, b, c) := t in
  V3 (w0 * x3 a + w1 * x3 b + w2 * x3 c) (w0 * y3 a + w1 * y3 b + w2 * y3 c) (w0 * z3 a + w1 * z3 b + w2 * z3 c).
(* n is the normal of the triangle: unit length, orthogonal to the sides, on the side from which the corners are
   counterclockwise *)
Definition is_normal (n : vec3) (t : tri) : Prop :=
  let '(a, b, c) := t in
  norm3 n = 1 /\ dot3 n (sub3 b a) = 0 /\ dot3 n (sub3 c a) = 0 /\ 0 < dot3 n (tri_cross a b c).
(* a mesh with the features of its vertices in the place of their positions *)
Definition with_features (p : mesh) (l : list vec3) : mesh := (l, snd p).

(* one row of the result: for a mesh without faces it is zero, for the others every sample lies in a face of positive area,
   its normal is the normal of that face, its texture the same combination of the features of the face's corners *)
Definition sample_row (n : nat) (p : mesh) (features : option (list vec3)) (pts : list vec3) (ns ts : option (list vec3)) : Prop :=
  length pts = n /\
  (forall l, ns = Some l -> length l = n) /\ (forall l, ts = Some l -> length l = n) /\
  (snd p = [] -> pts = repeat (V3 0 0 0) n /\ forall l, ns = Some l -> l = repeat (V3 0 0 0) n) /\
  (snd p <> [] -> forall j x, nth_error pts j = Some x ->
     exists k t w0 w1 w2, nth_error (faces_of p) k = Some t /\ 0 < triangle_area t /\
       0 <= w0 /\ 0 <= w1 /\ 0 <= w2 /\ w0 + w1 + w2 = 1 /\ x = at_weights w0 w1 w2 t /\
       (forall l y, ns = Some l -> nth_error l j = Some y -> / 2 ^ 52 <= 2 * triangle_area t -> is_normal y t) /\
       (forall l c fl ft, ts = Some l -> features = Some fl -> nth_error l j = Some c -> nth_error (faces_of (with_features p fl)) k = Some ft ->
          c = at_weights w0 w1 w2 ft)).

(* the triangle with corner a, a share s of the way to the opposite side, and the share q of that side that starts at b *)
Definition lerp (a b : vec3) (s : R) : vec3 := add3 a (scal3 s (sub3 b a)).
Definition sub_triangle (t : tri) (s q : R) : tri := let '(a, b, c) := t in (a, lerp a b s, lerp a (lerp b c q) s).
Definition inside (x : vec3) (t : tri) : Prop := let '(a, b, c) := t in in_tri3 x a b c.
