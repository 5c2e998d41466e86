(* Specification vocabulary for lighting and shading: how a tensor is read as a batch of vectors, and the laws
   of Lambert and Phong for one point. *)
From Verif Require Import Base RBase Geom LinAlg Tens Lighting.
Local Open Scope R_scope.

(* ---- reading tensors ---- *)
Definition row (t : tensor) (p : list nat) : vec3 :=
  V3 (get t (p ++ [0%nat])) (get t (p ++ [1%nat])) (get t (p ++ [2%nat])).
Definition inside (js ds : list nat) : Prop := Forall2 lt js ds.
(* shape (n, *ds, 3): the vector at (i, *js) is f i js *)
Definition vecs (t : tensor) (n : nat) (ds : list nat) (f : nat -> list nat -> vec3) : Prop :=
  shp t = n :: ds ++ [3%nat] /\ forall i js, (i < n)%nat -> inside js ds -> row t (i :: js) = f i js.
(* a property of a batch of n: shape (n, 3), or (1, 3) when it is shared; batch element i has f i *)
Definition prop3 (t : tensor) (n : nat) (f : nat -> vec3) : Prop :=
  (shp t = [n; 3%nat] /\ forall i, (i < n)%nat -> row t [i] = f i) \/
  (shp t = [1; 3]%nat /\ forall i, (i < n)%nat -> row t [0%nat] = f i).
Definition prop1 (t : tensor) (n : nat) (g : nat -> R) : Prop :=
  (shp t = [n] /\ forall i, (i < n)%nat -> get t [i] = g i) \/
  (shp t = [1%nat] /\ forall i, (i < n)%nat -> get t [0%nat] = g i).
(* a direction: one per batch element, or one per point *)
Definition direction_of (t : tensor) (n : nat) (ds : list nat) (f : nat -> list nat -> vec3) : Prop :=
  vecs t n ds f \/ exists g, prop3 t n g /\ forall i js, f i js = g i.

(* ---- the laws, for one point: n normal, l towards the light, v towards the viewer; of any length ---- *)
Definition vzero : vec3 := V3 0 0 0.
(* lengths below 1e-6 are clamped by the code *)
Definition sized (v : vec3) : Prop := / 1000000 <= norm3 v \/ v = vzero.
Definition cosine (a b : vec3) : R := dot3 a b / (norm3 a * norm3 b).
Definition lambert (n l : vec3) : R := Rmax 0 (cosine n l).
(* l mirrored at the line through the normal *)
Definition mirror (n l : vec3) : vec3 := sub3 (scal3 (2 * (dot3 n l / dot3 n n)) n) l.
Definition power (a s : R) : R := if Reqb a 0 then 0 else Rpower a s.
Definition gloss (n l v : vec3) (s : R) : R :=
  if Rltb 0 (dot3 n l) then power (Rmax 0 (cosine v (mirror n l))) s else 0.
(* colours multiply channel by channel *)
Definition tint (a b : vec3) : vec3 := V3 (x3 a * x3 b) (y3 a * y3 b) (z3 a * z3 b).

(* ---- lights, materials, pixels ---- *)
(* a batch of n lights: ambient, diffuse and specular colours, and the vector from a point towards the light *)
Definition lamp (l : lights) (n : nat) (la ld ls : nat -> vec3) (towards : nat -> vec3 -> vec3) : Prop :=
  match l with
  | Directional a d s v =>
      prop3 a n la /\ prop3 d n ld /\ prop3 s n ls /\ exists dir, prop3 v n dir /\ forall i p, towards i p = dir i
  | Point a d s x =>
      prop3 a n la /\ prop3 d n ld /\ prop3 s n ls /\ exists loc, prop3 x n loc /\ forall i p, towards i p = sub3 (loc i) p
  | Ambient a => prop3 a n la /\ (forall i, ld i = vzero) /\ (forall i, ls i = vzero)
  end.
(* a batch of n materials: reflectivities and exponents *)
Definition material (m : materials) (n : nat) (ma md ms : nat -> vec3) (s : nat -> R) : Prop :=
  prop3 (m_ambient m) n ma /\ prop3 (m_diffuse m) n md /\ prop3 (m_specular m) n ms /\ prop1 (m_shininess m) n s.
(* the colour of a surface point with texture colour x: (ambient + diffuse) * texture + specular *)
Definition shade (ma md ms : vec3) (s : R) (la ld ls n l v x : vec3) : vec3 :=
  add3 (tint (add3 (tint ma la) (tint md (scal3 (lambert n l) ld))) x) (tint ms (scal3 (gloss n l v s) ls)).
Definition mix (b p q r : vec3) : vec3 := add3 (scal3 (x3 b) p) (add3 (scal3 (y3 b) q) (scal3 (z3 b) r)).
(* the value A of the vertices, seen at a pixel inside face f with barycentric coordinates b *)
Definition on_face (A : nat -> vec3) (f : nat * nat * nat) (b : vec3) : vec3 :=
  let '(u, v, w) := f in mix b (A u) (A v) (A w).
Definition face_at (p2f : itensor) (faces : list (nat * nat * nat)) (ix : list nat) : option (nat * nat * nat) :=
  if (iget p2f ix <? 0)%Z then None else nth_error faces (Z.to_nat (iget p2f ix)).
(* the rasterizer's output: in range, -1 where nothing is seen *)
Definition rendered (p2f : itensor) (n h w k : nat) (faces : list (nat * nat * nat)) : Prop :=
  ishp p2f = [n; h; w; k] /\ faces <> [] /\
  forall i js, (i < n)%nat -> inside js [h; w; k] ->
    (-1 <= iget p2f (i :: js) < Z.of_nat (length faces))%Z.
Definition faces_ok (nv : nat) (faces : list (nat * nat * nat)) : Prop :=
  forall u v w, In (u, v, w) faces -> (u < nv /\ v < nv /\ w < nv)%nat.
Definition centroid (A : nat -> vec3) (f : nat * nat * nat) : vec3 :=
  let '(u, v, w) := f in div3 (add3 (A u) (add3 (A v) (A w))) 3.
(* one material for the whole batch *)
Definition shared_material (m : materials) (ma md ms : vec3) (s : R) : Prop :=
  shp (m_ambient m) = [1; 3]%nat /\ row (m_ambient m) [0%nat] = ma /\
  shp (m_diffuse m) = [1; 3]%nat /\ row (m_diffuse m) [0%nat] = md /\
  shp (m_specular m) = [1; 3]%nat /\ row (m_specular m) [0%nat] = ms /\
  shp (m_shininess m) = [1%nat] /\ get (m_shininess m) [0%nat] = s.
(* channel by channel between black and c *)
Definition within (a c : vec3) : Prop :=
  0 <= x3 a <= x3 c /\ 0 <= y3 a <= y3 c /\ 0 <= z3 a <= z3 c.
Definition colour (c : vec3) : Prop := 0 <= x3 c /\ 0 <= y3 c /\ 0 <= z3 c.
(* rigid motions: x -> x q + o *)
Definition rigid (q : mat3) : Prop := mul3 q (tr3 q) = id3.
Definition moved (q : mat3) (o x : vec3) : vec3 := add3 (vmul3 x q) o.
(* packed tensors (P, 3) and pixels for examples *)
Definition entry (v : vec3) (c : nat) : R := match c with 0%nat => x3 v | 1%nat => y3 v | _ => z3 v end.
Definition packed (l : list vec3) : tensor :=
  T [length l; 3%nat] (fun ix => match ix with [i; c] => entry (nth i l vzero) c | _ => 0 end).
Definition filled (n h w k : nat) (v : vec3) : tensor := T [n; h; w; k; 3%nat] (fun ix => entry v (last ix 0%nat)).
Definition channel (n : nat) (x : R) : tensor := T [n; 1%nat] (fun _ => x).
