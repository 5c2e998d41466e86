(* Specification vocabulary for the Laplacian matrices and the mesh losses. *)
From Verif Require Import Base RBase Geom FaceAreas FaceAreasSpec MeshesSpec.
Local Open Scope R_scope.

Definition entry (M : list (list R)) (i j : nat) : R := nth j (nth i M []) 0.
Definition square (V : nat) (M : list (list R)) : Prop := length M = V /\ Forall (fun row => length row = V) M.
Definition symmetric (V : nat) (M : list (list R)) : Prop := forall i j, (i < V)%nat -> (j < V)%nat -> entry M i j = entry M j i.

(* ---- graphs as edge lists ---- *)
Definition simple_edges (V : nat) (E : list (Z * Z)) : Prop :=
  Forall (fun e => (0 <= fst e < Z.of_nat V /\ 0 <= snd e < Z.of_nat V /\ fst e <> snd e)%Z) E /\ NoDup (map low_high E).
Definition joined (E : list (Z * Z)) (i j : nat) : Prop := In (Z.of_nat i, Z.of_nat j) E \/ In (Z.of_nat j, Z.of_nat i) E.
Definition edges_at (E : list (Z * Z)) (i : nat) : nat := length (filter (fun e => (fst e =? Z.of_nat i) || (snd e =? Z.of_nat i))%Z E).

(* ---- triangles ---- *)
Definition dist (u v : vec3) : R := norm3 (sub3 u v).
(* the area of a triangle, kept above 1e-6 *)
Definition area_of (x y z : vec3) : R := Rmax (norm3 (tri_cross x y z) / 2) (/ 1000000).
(* the cotangent of the angle at x: the inner product of the sides over the length of their cross product *)
Definition cotan (x y z : vec3) : R := dot3 (sub3 y x) (sub3 z x) / (2 * area_of x y z).
(* the corners of a face: a vertex and the two that follow it *)
Definition around (f : Z * Z * Z) : list (Z * Z * Z) := let '(a, b, c) := f in [(a, b, c); (b, c, a); (c, a, b)].
Definition all_corners (fs : list (Z * Z * Z)) : list (Z * Z * Z) := flat_map around fs.
Definition corners_at (fs : list (Z * Z * Z)) (i : nat) : list (Z * Z * Z) := filter (fun c => (fst (fst c) =? Z.of_nat i)%Z) (all_corners fs).
(* the neighbours of vertex i with their cotangent weights: in the triangle (i, y, z), vertex y is seen from z and z from y *)
Definition cot_weights (vs : list vec3) (fs : list (Z * Z * Z)) (i : nat) : list (R * vec3) :=
  flat_map (fun c => let '(x, y, z) := c in
    [(cotan (at_ vs z) (at_ vs x) (at_ vs y), at_ vs y); (cotan (at_ vs y) (at_ vs z) (at_ vs x), at_ vs z)]) (corners_at fs i).
Definition area_at (vs : list vec3) (fs : list (Z * Z * Z)) (i : nat) : R :=
  rsum (map (fun c => let '(x, y, z) := c in area_of (at_ vs x) (at_ vs y) (at_ vs z)) (corners_at fs i)).
Definition total (l : list (R * vec3)) : R := rsum (map fst l).
Definition combination (l : list (R * vec3)) : vec3 := vsum (map (fun p => scal3 (fst p) (snd p)) l).

(* ---- one mesh ---- *)
Definition joins (f : Z * Z * Z) (i j : nat) : bool := existsb (fun e => ((fst e =? Z.of_nat i) && (snd e =? Z.of_nat j))%Z) (sides f ++ map (fun e => (snd e, fst e)) (sides f)).
Definition nbrs (p : mesh) (i : nat) : list nat := filter (fun j => existsb (fun f => joins f i j) (snd p)) (seq 0 (length (fst p))).
Definition mesh_edges (p : mesh) : list (nat * nat) := flat_map (fun i => map (pair i) (filter (Nat.leb i) (nbrs p i))) (seq 0 (length (fst p))).
Definition vertex (p : mesh) (i : nat) : vec3 := at_ (fst p) (Z.of_nat i).
(* the mean of no numbers counts as zero *)
Definition mean (l : list R) : R := match l with [] => 0 | _ => rsum l / INR (length l) end.

Definition edge_loss (target : R) (b : list mesh) : R :=
  mean (map (fun p => mean (map (fun e => (dist (vertex p (fst e)) (vertex p (snd e)) - target) ^ 2) (mesh_edges p))) b).
(* from a vertex to the mean of its neighbours; an isolated vertex is sent to the origin *)
Definition to_centroid (p : mesh) (i : nat) : vec3 :=
  match nbrs p i with
  | [] => sub3 (V3 0 0 0) (vertex p i)
  | ns => sub3 (scal3 (/ INR (length ns)) (vsum (map (vertex p) ns))) (vertex p i)
  end.
(* the same with cotangent weights *)
Definition to_cot_centroid (p : mesh) (i : nat) : vec3 :=
  let ws := cot_weights (fst p) (snd p) i in
  if Rltb 0 (total ws) then sub3 (scal3 (/ total ws) (combination ws)) (vertex p i) else sub3 (V3 0 0 0) (vertex p i).
(* sum of w_ij (v_j - v_i) over 4 A_i; zero for an isolated vertex *)
Definition curvature (p : mesh) (i : nat) : vec3 :=
  match corners_at (snd p) i with
  | [] => V3 0 0 0
  | _ => scal3 (/ (4 * area_at (fst p) (snd p) i)) (combination (map (fun w => (fst w, sub3 (snd w) (vertex p i))) (cot_weights (fst p) (snd p) i)))
  end.
Definition smoothing_loss (step : mesh -> nat -> vec3) (b : list mesh) : R :=
  mean (map (fun p => mean (map (fun i => norm3 (step p i)) (seq 0 (length (fst p))))) b).

(* ---- Taubin smoothing of one mesh ---- *)
Definition near_weight (p : mesh) (i j : nat) : R := / (dist (vertex p i) (vertex p j) + / 1000000000000).
Definition near_mean (p : mesh) (i : nat) : vec3 :=
  let ws := map (fun j => (near_weight p i j, vertex p j)) (nbrs p i) in scal3 (/ total ws) (combination ws).
Definition smoothed (lam : R) (p : mesh) : mesh :=
  (map (fun i => add3 (scal3 (1 - lam) (vertex p i)) (scal3 lam (near_mean p i))) (seq 0 (length (fst p))), snd p).
Fixpoint taubin (n : nat) (lam mu : R) (p : mesh) : mesh :=
  match n with O => p | S n => taubin n lam mu (smoothed mu (smoothed lam p)) end.
(* every vertex is joined to another one *)
Definition no_isolated (p : mesh) : Prop := forall i, (i < length (fst p))%nat -> nbrs p i <> [].

(* ---- rigid motions ---- *)
Definition rigid (g : vec3 -> vec3) : Prop :=
  exists l t, (forall v, g v = add3 (l v) t) /\ (forall u v, l (add3 u v) = add3 (l u) (l v)) /\ (forall c v, l (scal3 c v) = scal3 c (l v)) /\ (forall v, norm3 (l v) = norm3 v).
Definition moved (g : vec3 -> vec3) (b : list mesh) : list mesh := map (fun p => (map g (fst p), snd p)) b.

(* ---- the angles that look at the side i j ---- *)
Definition facing (fs : list (Z * Z * Z)) (i j : nat) : list (Z * Z * Z) :=
  filter (fun c => ((snd (fst c) =? Z.of_nat i) && (snd c =? Z.of_nat j) || (snd (fst c) =? Z.of_nat j) && (snd c =? Z.of_nat i))%Z) (all_corners fs).
