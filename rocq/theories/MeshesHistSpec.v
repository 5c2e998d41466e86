(* What every accessor of a Meshes object answers, and what every operation does, in terms of the
   batch of meshes alone (no caches). *)
From Verif Require Import Base RBase Geom FaceAreas FaceAreasSpec Meshes MeshesSpec.
Local Open Scope nat_scope.

Inductive query :=
| QLen | QValid | QIsEmpty
| QVertsList | QFacesList | QNumVerts | QNumFaces
| QVertsPacked | QVertsPackedToMesh | QMeshToVertsFirst | QFacesPacked | QFacesPackedToMesh | QMeshToFacesFirst
| QVertsPadded | QFacesPadded | QPaddedToPacked
| QEdges | QEdgesToMesh | QNumEdges | QMeshToEdgesFirst | QFacesToEdges
| QAreas | QFaceNormals | QFaceNormalsList | QFaceNormalsPadded
| QVertNormals | QVertNormalsList | QVertNormalsPadded | QLaplacian.

Inductive answer :=
| ARows (l : list vec3) | ARowLists (l : list (list vec3)) | AFaces (l : list face) | AFaceLists (l : list (list face))
| AInts (l : list Z) | ANats (l : list nat) | ARowPad (p : padded vec3) | AFacePad (p : padded face)
| AEdges (l : list (Z * Z)) | AOptNats (o : option (list nat)) | AOptTriples (o : option (list (Z * Z * Z)))
| ABools (l : list bool) | AReals (l : list R) | AMatrix (l : list (list R)).

(* the harness: calls the accessor *)
Definition ask (argsort : list Z -> list nat) (q : query) (m : meshes) : result (answer * meshes) :=
  let as_ {T} (f : T -> answer) (r : result (T * meshes)) := x <- r ;; Ok (f (fst x), snd x) in
  match q with
  | QLen => Ok (ANats [mN m], m)
  | QValid => Ok (ABools (valid m), m)
  | QIsEmpty => Ok (ABools [isempty m], m)
  | QVertsList => as_ ARowLists (verts_list m)
  | QFacesList => as_ AFaceLists (faces_list m)
  | QNumVerts => Ok (ANats (num_verts_per_mesh m), m)
  | QNumFaces => Ok (ANats (num_faces_per_mesh m), m)
  | QVertsPacked => as_ ARows (verts_packed m)
  | QVertsPackedToMesh => as_ AInts (verts_packed_to_mesh_idx m)
  | QMeshToVertsFirst => as_ ANats (mesh_to_verts_packed_first_idx m)
  | QFacesPacked => as_ AFaces (faces_packed m)
  | QFacesPackedToMesh => as_ AInts (faces_packed_to_mesh_idx m)
  | QMeshToFacesFirst => as_ ANats (mesh_to_faces_packed_first_idx m)
  | QVertsPadded => as_ ARowPad (verts_padded m)
  | QFacesPadded => as_ AFacePad (faces_padded m)
  | QPaddedToPacked => as_ ANats (verts_padded_to_packed_idx m)
  | QEdges => as_ AEdges (edges_packed argsort m)
  | QEdgesToMesh => as_ AInts (edges_packed_to_mesh_idx argsort m)
  | QNumEdges => as_ AOptNats (num_edges_per_mesh argsort m)
  | QMeshToEdgesFirst => as_ AOptNats (mesh_to_edges_packed_first_idx argsort m)
  | QFacesToEdges => as_ AOptTriples (faces_packed_to_edges_packed argsort m)
  | QAreas => as_ AReals (faces_areas_packed m)
  | QFaceNormals => as_ ARows (faces_normals_packed m)
  | QFaceNormalsList => as_ ARowLists (faces_normals_list m)
  | QFaceNormalsPadded => as_ ARowPad (faces_normals_padded m)
  | QVertNormals => as_ ARows (verts_normals_packed m)
  | QVertNormalsList => as_ ARowLists (verts_normals_list m)
  | QVertNormalsPadded => as_ ARowPad (verts_normals_padded m)
  | QLaplacian => as_ AMatrix (laplacian_packed argsort m)
  end.

(* l holds the entries of the lists of p, cut into pieces of the given sizes *)
Definition pieces {T} (sizes : list nat) (l : list T) (ls : list (list T)) : Prop := concat ls = l /\ map (@length T) ls = sizes.
(* ls, each list filled up with z to the length of the longest one *)
Definition fill_up {T} (z : T) (ls : list (list T)) : padded T :=
  let M := max_nat (map (@length T) ls) in Pad M (map (fun l => l ++ repeat z (M - length l)) ls).

Definition vert_normals (a : astate) : list vec3 :=
  match user a with Some u => u | None => concat (map mesh_normals (batch a)) end.
Definition face_normals (b : list mesh) : list (list vec3) := map (fun p => map snd (mesh_areas p)) b.
(* entry (i, j) of the Laplacian: 1/deg(i) for every edge between i and j, minus 1 on the diagonal *)
Definition lap_entry (E : list (Z * Z)) (i j : nat) : R :=
  (rsum (map (fun e => (if ((fst e =? Z.of_nat i) && (snd e =? Z.of_nat j))%Z then / deg E i else 0) +
                       (if ((snd e =? Z.of_nat i) && (fst e =? Z.of_nat j))%Z then / deg E i else 0)) E)
   - (if (i =? j)%nat then 1 else 0))%R.

Definition tell (q : query) (a : astate) (r : answer) : Prop :=
  let b := batch a in
  match q, r with
  | QLen, ANats l => l = [length b]
  | QValid, ABools l => l = map (fun p => negb (length (snd p) =? 0)) b
  | QIsEmpty, ABools l => l = [false]
  | QVertsList, ARowLists l => l = map fst b
  | QFacesList, AFaceLists l => l = map snd b
  | QNumVerts, ANats l => l = vcount b
  | QNumFaces, ANats l => l = fcount b
  | QVertsPacked, ARows l => l = all_verts b
  | QVertsPackedToMesh, AInts l => l = owners 0 (vcount b)
  | QMeshToVertsFirst, ANats l => l = map (vstart b) (seq 0 (length b))
  | QFacesPacked, AFaces l => l = all_faces b
  | QFacesPackedToMesh, AInts l => l = owners 0 (fcount b)
  | QMeshToFacesFirst, ANats l => l = map (fstart b) (seq 0 (length b))
  | QVertsPadded, ARowPad p =>
      rows p = zip_app (map fst b) (vtail a) /\ dim1 p = max_nat (vcount b) /\ Forall (fun r => length r = dim1 p) (rows p)
  | QFacesPadded, AFacePad p =>
      rows p = zip_app (map snd b) (ftail a) /\ Forall (fun r => length r = dim1 p) (rows p)
  | QPaddedToPacked, ANats l => l = concat (map (fun i => seq (i * max_nat (vcount b)) (nth i (vcount b) 0)) (seq 0 (length b)))
  | QEdges, AEdges l => edge_list (all_faces b) l /\ exists Es, own_edges b Es /\ l = move_edges 0 b Es
  | QEdgesToMesh, AInts l => exists Es, own_edges b Es /\ l = owners 0 (map (@length _) Es)
  | QNumEdges, AOptNats l => exists Es, own_edges b Es /\ l = Some (map (@length _) Es)
  | QMeshToEdgesFirst, AOptNats l => exists Es, own_edges b Es /\
      l = Some (map (fun i => sum_nat (firstn i (map (@length _) Es))) (seq 0 (length b)))
  | QFacesToEdges, AOptTriples l => exists E l', edge_list (all_faces b) E /\ l = Some l' /\ Forall2 (opposite_edges E) (all_faces b) l'
  | QAreas, AReals l => l = concat (map (fun p => map fst (mesh_areas p)) b)
  | QFaceNormals, ARows l => l = concat (face_normals b)
  | QFaceNormalsList, ARowLists l => l = face_normals b
  | QFaceNormalsPadded, ARowPad p => p = fill_up (V3 0 0 0)%R (face_normals b)
  | QVertNormals, ARows l => l = vert_normals a
  | QVertNormalsList, ARowLists l => pieces (vcount b) (vert_normals a) l
  | QVertNormalsPadded, ARowPad p => exists ls, pieces (vcount b) (vert_normals a) ls /\ p = fill_up (V3 0 0 0)%R ls
  | QLaplacian, AMatrix L => exists E, edge_list (all_faces b) E /\
      L = map (fun i => map (lap_entry E i) (seq 0 (length (all_verts b)))) (seq 0 (length (all_verts b)))
  | _, _ => False
  end.

(* ---- operations that continue with a (possibly new) object ---- *)
Inductive op :=
| Ask (q : query) | Offset (o : offset) | Scale (s : scale_arg) | Clone | Update (nv : padded vec3)
| Select (ix : mindex) | Extend (n : Z).

Definition apply (argsort : list Z -> list nat) (o : op) (m : meshes) : result meshes :=
  match o with
  | Ask q => x <- ask argsort q m ;; Ok (snd x)
  | Offset o => offset_verts_ o m
  | Scale s => scale_verts_ s m
  | Clone => x <- clone m ;; Ok (fst x)
  | Update nv => x <- update_padded nv m ;; Ok (fst x)
  | Select ix => x <- getitem ix m ;; Ok (fst x)
  | Extend n => x <- extend n m ;; Ok (fst x)
  end.

(* Python indexing *)
Definition at_index {T} (l : list T) (i : Z) (x : T) : Prop :=
  (0 <= i /\ nth_error l (Z.to_nat i) = Some x)%Z \/ (i < 0 <= i + Z.of_nat (length l) /\ nth_error l (Z.to_nat (i + Z.of_nat (length l))) = Some x)%Z.
Definition selected {T} (ix : mindex) (l l' : list T) : Prop :=
  match ix with
  | XInt i => exists x, at_index l i x /\ l' = [x]
  | XSlice s e => l' = firstn (e - s) (skipn s l)
  | XList is => Forall2 (at_index l) is l'
  | XMask bs => (forall k, length l <= k -> nth k bs false = false) /\ l' = map fst (filter snd (combine l bs))
  end.
Definition has_a_face (b : list mesh) : Prop := exists p, In p b /\ snd p <> [].

(* scaling mesh p by s keeps its vertex normals: every one of them is zero, or long enough before and after *)
Definition scale_safe (s : R) (p : mesh) : Prop :=
  s <> 0%R /\ forall w, w < length (fst p) -> let n := raw_normal (fst p) (snd p) w in
    (n = V3 0 0 0 \/ (/ 1000000 <= norm3 n /\ / 1000000 <= s * s * norm3 n))%R.
Definition scales (s : scale_arg) (b : list mesh) : list R :=
  match s with OneScale x => repeat x (length b) | AllScales l => l end.

(* from state a the operation leads to state a' *)
Definition does (o : op) (a a' : astate) : Prop :=
  let b := batch a in
  match o with
  | Ask _ | Clone => a' = a
  | Offset (OneOffset v) => a' = A (shift_one v b) (vtail a) (ftail a) (user a)
  | Offset (AllOffsets l) => length l = length (all_verts b) /\ a' = A (shift_all l b) (vtail a) (ftail a) None
  | Scale s =>
      length b <= length (scales s b) /\
      (user a <> None \/ Forall (fun q => scale_safe (fst q) (snd q)) (combine (scales s b) b)) /\
      a' = A (scale_batch (scales s b) b) (vtail a) (ftail a) (user a)
  | Update nv =>
      length (rows nv) = length b /\ dim1 nv = max_nat (vcount b) /\ Forall (fun r => length r = dim1 nv) (rows nv) /\
      a' = A (replace_verts (rows nv) b) (left_over (rows nv) b) (ftail a) None
  | Select ix => exists b', selected ix b b' /\ has_a_face b' /\ a' = from_lists b'
  | Extend n => (0 < n)%Z /\ a' = from_lists (flat_map (fun p => repeat p (Z.to_nat n)) b)
  end.
Inductive history : list op -> astate -> astate -> Prop :=
| done a : history [] a a
| step o os a a' a'' : does o a a' -> history os a' a'' -> history (o :: os) a a''.

(* ---- how an object behaves ---- *)
Fixpoint run (argsort : list Z -> list nat) (os : list op) (m : meshes) : result meshes :=
  match os with [] => Ok m | o :: os' => m' <- apply argsort o m ;; run argsort os' m' end.
(* whatever is done with m, every accessor answers as the state it stands for says *)
Definition behaves (argsort : list Z -> list nat) (m : meshes) (a : astate) : Prop :=
  forall os a', history os a a' -> exists m', run argsort os m = Ok m' /\
    forall q, exists r m'', ask argsort q m' = Ok (r, m'') /\ tell q a' r.

(* objects made by a constructor and used in any way *)
Inductive reachable (argsort : list Z -> list nat) : meshes -> astate -> Prop :=
| made_from_lists b m : Forall good_mesh b -> has_a_face b ->
    new_list (map fst b) (map snd b) = Ok m -> reachable argsort m (from_lists b)
| made_from_padded b M D ft m : Forall good_mesh b -> has_a_face b ->
    (forall p, In p b -> length (fst p) = M) -> length ft = length b -> Forall (Forall is_pad) ft ->
    Forall (fun r => length r = D) (zip_app (map snd b) ft) ->
    new_padded (Pad M (map fst b)) (Pad D (zip_app (map snd b) ft)) = Ok m ->
    reachable argsort m (A b (map (fun _ => []) b) ft None)
| given_normals b m ns m' : Forall good_mesh b -> has_a_face b -> new_list (map fst b) (map snd b) = Ok m ->
    map (@length _) ns = vcount b -> set_verts_normals (NList ns) m = Ok m' ->
    reachable argsort m' (A b (vtail (from_lists b)) (ftail (from_lists b)) (Some (concat ns)))
| used o m a m' a' : reachable argsort m a -> does o a a' -> apply argsort o m = Ok m' -> reachable argsort m' a'.

(* the lists a Meshes object shows are the meshes of b; this also makes sense without any face *)
Definition shows (m : meshes) (b : list mesh) : Prop :=
  exists m1 m2, verts_list m = Ok (map fst b, m1) /\ faces_list m1 = Ok (map snd b, m2).
(* a batch cut into consecutive parts *)
Fixpoint chunks {T} (sizes : list nat) (l : list T) : list (list T) :=
  match sizes with [] => [] | n :: ss => firstn n l :: chunks ss (skipn n l) end.
(* p' is p restricted to the faces with the given numbers, without unused vertices *)
Definition part_of (p : mesh) (ids : list Z) (p' : mesh) : Prop :=
  exists keep u, Forall2 (at_index (snd p)) ids keep /\
    Sorted.StronglySorted Z.lt u /\ (forall v, In v u <-> exists f, In f keep /\ In v (corners f)) /\
    fst p' = map (at_ (fst p)) u /\
    Forall2 (fun f f' => Forall2 (fun v v' => (0 <= v')%Z /\ nth_error u (Z.to_nat v') = Some v) (corners f) (corners f')) keep (snd p').
(* (lo, hi) is the range of the numbers in l *)
Definition range_of (l : list R) (r : R * R) : Prop :=
  (In (fst r) l /\ In (snd r) l /\ forall x, In x l -> fst r <= x <= snd r)%R.
Definition box_of (vs : list vec3) (box : (R * R) * (R * R) * (R * R)) : Prop :=
  let '(x, y, z) := box in range_of (map x3 vs) x /\ range_of (map y3 vs) y /\ range_of (map z3 vs) z.

(* i and j are joined by a side of a face; the neighbours of i *)
Definition adjacent (fs : list face) (i j : nat) : Prop := exists f, In f fs /\ side_of (Z.of_nat i, Z.of_nat j) f.
Definition neighbours (fs : list face) (i : nat) (ns : list nat) : Prop := NoDup ns /\ forall j, In j ns <-> adjacent fs i j.
Definition three_corners (f : face) : Prop := let '(a, b, c) := f in a <> b /\ b <> c /\ c <> a.
(* the selection is possible: every number names a face of the mesh *)
Definition ids_fit (p : mesh) (ids : list Z) : Prop :=
  Forall (fun i => - Z.of_nat (length (snd p)) <= i < Z.of_nat (length (snd p)))%Z ids.
(* calls that keep the object's shape *)
Definition edit (o : op) : Prop := match o with Ask _ | Offset _ | Scale _ | Clone => True | _ => False end.
