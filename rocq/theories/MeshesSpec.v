(* Specification vocabulary for Meshes: what a batch of meshes is, independently of caches. *)
From Coq Require Import Sorted.
From Verif Require Import Base RBase Geom FaceAreas FaceAreasSpec.
Local Open Scope R_scope.

(* one mesh: its vertices and its faces (indices into its own vertices) *)
Definition mesh := (list vec3 * list face)%type.
Definition good_mesh (p : mesh) : Prop := Forall (in_range (length (fst p))) (snd p).
Definition vcount (b : list mesh) : list nat := map (fun p => length (fst p)) b.
Definition fcount (b : list mesh) : list nat := map (fun p => length (snd p)) b.
(* position of the first vertex / face of mesh i among all of them *)
Definition vstart (b : list mesh) (i : nat) : nat := sum_nat (firstn i (vcount b)).
Definition fstart (b : list mesh) (i : nat) : nat := sum_nat (firstn i (fcount b)).

(* all vertices one after the other; all faces, each pointing into that list *)
Definition all_verts (b : list mesh) : list vec3 := concat (map fst b).
Definition move_face (o : nat) (f : face) : face :=
  let '(i, j, k) := f in (i + Z.of_nat o, j + Z.of_nat o, k + Z.of_nat o)%Z.
Fixpoint faces_from (o : nat) (b : list mesh) : list face :=
  match b with
  | [] => []
  | p :: b' => map (move_face o) (snd p) ++ faces_from (o + length (fst p)) b'
  end.
Definition all_faces (b : list mesh) : list face := faces_from 0 b.
(* which mesh each row belongs to *)
Fixpoint owners (i : nat) (counts : list nat) : list Z :=
  match counts with [] => [] | n :: c => repeat (Z.of_nat i) n ++ owners (S i) c end.

(* A batch as the user sees it: its meshes, what stands in the padding of the padded tensors,
   and vertex normals given by the user (until they are forgotten). *)
Record astate := A {
  batch : list mesh; vtail : list (list vec3); ftail : list (list face); user : option (list vec3) }.

Fixpoint zip_app {T} (a b : list (list T)) : list (list T) :=
  match a, b with x :: a', y :: b' => (x ++ y) :: zip_app a' b' | _, _ => [] end.

Definition is_pad (f : face) : Prop := let '(i, j, k) := f in (i < 0 \/ j < 0 \/ k < 0)%Z.

Definition wf_state (a : astate) : Prop :=
  let b := batch a in
  Forall good_mesh b /\ (exists p, In p b /\ snd p <> []) /\
  length (vtail a) = length b /\ length (ftail a) = length b /\
  Forall (fun r => length r = max_nat (vcount b)) (zip_app (map fst b) (vtail a)) /\
  (exists D, Forall (fun r => length r = D) (zip_app (map snd b) (ftail a))) /\
  Forall (Forall is_pad) (ftail a) /\
  (forall l, user a = Some l -> length l = sum_nat (vcount b)).

(* the state of a batch given as lists: zero padding *)
Definition tails {T} (m : nat) (z : T) (counts : list nat) : list (list T) := map (fun n => repeat z (m - n)) counts.
Definition from_lists (b : list mesh) : astate :=
  A b (tails (max_nat (vcount b)) (V3 0 0 0) (vcount b)) (tails (max_nat (fcount b)) (-1, -1, -1)%Z (fcount b)) None.

(* the three sides of a face, each opposite to the vertex with the same number *)
Definition sides (f : face) : list (Z * Z) := let '(a, b, c) := f in [(b, c); (c, a); (a, b)].
Definition side_of (e : Z * Z) (f : face) : Prop := In e (sides f) \/ In (snd e, fst e) (sides f).
Definition lex (e e' : Z * Z) : Prop := (fst e < fst e' \/ (fst e = fst e' /\ snd e < snd e'))%Z.
(* E lists every undirected edge of the faces fs once, in lexicographic order *)
Definition edge_list (fs : list face) (E : list (Z * Z)) : Prop :=
  StronglySorted lex E /\
  forall e, In e E <-> (fst e <= snd e)%Z /\ exists f, In f fs /\ side_of e f.

(* un-normalised vertex normal: sum of the edge cross products of the incident face corners *)
Definition vsum (l : list vec3) : vec3 := fold_right add3 (V3 0 0 0) l.
Definition count_corner (f : face) (v : nat) : nat :=
  let '(a, b, c) := f in
  ((if (a =? Z.of_nat v)%Z then 1 else 0) + (if (b =? Z.of_nat v)%Z then 1 else 0) + (if (c =? Z.of_nat v)%Z then 1 else 0))%nat.
Definition raw_normal (vs : list vec3) (fs : list face) (v : nat) : vec3 :=
  vsum (map (fun f => let '(a, b, c) := f in
    scal3 (INR (count_corner f v)) (tri_cross (at_ vs a) (at_ vs b) (at_ vs c))) fs).
Definition unit_or_short (v : vec3) : vec3 := div3 v (Rmax (norm3 v) (/ 1000000)).
Definition normals_of (b : list mesh) : list vec3 :=
  map (fun v => unit_or_short (raw_normal (all_verts b) (all_faces b) v)) (seq 0 (length (all_verts b))).
Definition areas_of (b : list mesh) : list (R * vec3) :=
  map (fun f => let '(i, j, k) := f in
    let c := tri_cross (at_ (all_verts b) i) (at_ (all_verts b) j) (at_ (all_verts b) k) in
    (norm3 c / 2, unit_or_short c)) (all_faces b).

(* Laplacian: -1 on the diagonal plus 1/deg(i) for each edge (i, j) *)
Definition deg (E : list (Z * Z)) (i : nat) : R :=
  rsum (map (fun e => (if (fst e =? Z.of_nat i)%Z then 1 else 0) + (if (snd e =? Z.of_nat i)%Z then 1 else 0)) E).

(* per mesh: what the normals and areas of one mesh are, without the rest of the batch *)
Definition mesh_normals (p : mesh) : list vec3 :=
  map (fun v => unit_or_short (raw_normal (fst p) (snd p) v)) (seq 0 (length (fst p))).
Definition mesh_areas (p : mesh) : list (R * vec3) :=
  map (fun f => let '(i, j, k) := f in
    let c := tri_cross (at_ (fst p) i) (at_ (fst p) j) (at_ (fst p) k) in (norm3 c / 2, unit_or_short c)) (snd p).

(* what the in-place operations do to a batch *)
Definition add_each (a c : list vec3) : list vec3 := map (fun q => add3 (fst q) (snd q)) (combine a c).
Definition shift_one (v : vec3) (b : list mesh) : list mesh := map (fun p => (map (fun x => add3 x v) (fst p), snd p)) b.
Fixpoint shift_all (l : list vec3) (b : list mesh) : list mesh :=
  match b with
  | [] => []
  | p :: b' => (add_each (fst p) (firstn (length (fst p)) l), snd p) :: shift_all (skipn (length (fst p)) l) b'
  end.
Definition scale_batch (ss : list R) (b : list mesh) : list mesh :=
  map (fun q => (map (scal3 (fst q)) (fst (snd q)), snd (snd q))) (combine ss b).
(* rs: one row of new vertices per mesh, as long as the largest mesh *)
Definition replace_verts (rs : list (list vec3)) (b : list mesh) : list mesh :=
  map (fun q => (firstn (length (fst (snd q))) (fst q), snd (snd q))) (combine rs b).
Definition left_over (rs : list (list vec3)) (b : list mesh) : list (list vec3) :=
  map (fun q => skipn (length (fst (snd q))) (fst q)) (combine rs b).

(* the edges of every mesh on its own, and all of them one after the other *)
Definition own_edges (b : list mesh) (Es : list (list (Z * Z))) : Prop := Forall2 (fun p E => edge_list (snd p) E) b Es.
Definition move_edge (o : nat) (e : Z * Z) : Z * Z := (fst e + Z.of_nat o, snd e + Z.of_nat o)%Z.
Fixpoint move_edges (o : nat) (b : list mesh) (Es : list (list (Z * Z))) : list (Z * Z) :=
  match b, Es with
  | p :: b', E :: Es' => map (move_edge o) E ++ move_edges (o + length (fst p)) b' Es'
  | _, _ => []
  end.
Definition low_high (e : Z * Z) : Z * Z := (Z.min (fst e) (snd e), Z.max (fst e) (snd e)).
(* t names, for every vertex of face f, the edge opposite to it *)
Definition opposite_edges (E : list (Z * Z)) (f : face) (t : Z * Z * Z) : Prop :=
  let '(a, b, c) := f in let '(i, j, k) := t in
  (0 <= i /\ 0 <= j /\ 0 <= k)%Z /\
  nth_error E (Z.to_nat i) = Some (low_high (b, c)) /\
  nth_error E (Z.to_nat j) = Some (low_high (c, a)) /\
  nth_error E (Z.to_nat k) = Some (low_high (a, b)).
(* torch.sort: some permutation that puts the values in ascending order *)
Definition sorts (argsort : list Z -> list nat) : Prop :=
  forall l, Permutation.Permutation (argsort l) (seq 0 (length l)) /\
            StronglySorted Z.le (map (fun i => nth i l 0%Z) (argsort l)).
