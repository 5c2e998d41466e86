(* Model of pytorch3d/ops/subdivide_meshes.py: SubdivideMeshes, with precomputed faces (homogeneous)
   and without (heterogeneous). Feature rows have any type F with the mean of two rows. Gradients and
   devices are not modelled. *)
From Verif Require Import Base Packing RBase Geom FaceAreas Meshes.
Local Open Scope R_scope.

(* verts[edges].mean(dim=1) *)
Definition mean_row (u v : vec3) : vec3 := V3 ((x3 u + x3 v) / 2) ((y3 u + y3 v) / 2) ((z3 u + z3 v) / 2).
Definition edge_means {F} (mean : F -> F -> F) (rows : list F) (edges : list (Z * Z)) : result (list F) :=
  rmap (fun e => a <- py_nth rows (fst e) ;; b <- py_nth rows (snd e) ;; Ok (mean a b)) edges.

(* subdivide_meshes.py:106-143. torch.stack needs as many faces as rows of faces_to_edges, which
   Meshes guarantees. *)
Definition quarter (V : nat) (faces : list face) (faces_to_edges : list (Z * Z * Z)) : list face :=
  let e := map (shift_face (Z.of_nat V)) faces_to_edges in
  let fe := combine faces e in
  map (fun p => let '((a, b, c), (i, j, k)) := p in (a, k, j)) fe ++
  map (fun p => let '((a, b, c), (i, j, k)) := p in (b, i, k)) fe ++
  map (fun p => let '((a, b, c), (i, j, k)) := p in (c, j, i)) fe ++ e.

(* torch.argsort(nums, stable=True): the positions of the smallest value in order, then those of the
   next value, ... *)
Definition stable_argsort (l : list nat) : list nat :=
  flat_map (fun v => filter (fun i => nth i l 0 =? v)%nat (seq 0 (length l))) (seq 0 (S (max_nat l))).
(* rng.repeat_interleave(counts) *)
Fixpoint repeat_interleave (i : nat) (counts : list nat) : list nat :=
  match counts with [] => [] | n :: c => repeat i n ++ repeat_interleave (S i) c end.
(* subdivide_meshes.py:336-377, 380-407 *)
Definition create_verts_index (verts_per_mesh edges_per_mesh : list nat) : list nat :=
  stable_argsort (repeat_interleave 0 verts_per_mesh ++ repeat_interleave 0 edges_per_mesh).
Definition create_faces_index (faces_per_mesh : list nat) : list nat :=
  let nums := repeat_interleave 0 faces_per_mesh in stable_argsort (nums ++ nums ++ nums ++ nums).
(* bincount(minlength=N) *)
Definition span (l : list Z) : nat := fold_right (fun x n => Nat.max (S (Z.to_nat x)) n) 0%nat l.
Definition bincount (N : nat) (l : list Z) : result (list nat) :=
  if existsb (fun x => x <? 0)%Z l then Fail ERuntime else Ok (count_mesh (Nat.max N (span l)) l).
(* zeros(n).scatter_add(0, idx, arange(n)) *)
Definition scatter_positions (n : nat) (idx : list nat) : result (list nat) :=
  rfold (fun acc p => x <- rget acc (fst p) ;; upd acc (fst p) (x + snd p)%nat) (combine idx (seq 0 n)) (repeat 0%nat n).
Definition take {A} (l : list A) (idx : list nat) : result (list A) := rmap (rget l) idx.
Definition renumber (ordered : list nat) (f : face) : result face :=
  let '(a, b, c) := f in
  x <- py_nth ordered a ;; y <- py_nth ordered b ;; z <- py_nth ordered c ;; Ok (Z.of_nat x, Z.of_nat y, Z.of_nat z).
(* elementwise sum of two 1D tensors of the same size *)
Definition add_sizes (a b : list nat) : result (list nat) :=
  if (length a =? length b)%nat then Ok (map (fun p => fst p + snd p)%nat (combine a b)) else Fail ERuntime.

Section Argsort.
Variable argsort : list Z -> list nat.

(* subdivide_meshes.py:55-143 subdivide_faces; None + number raises TypeError *)
Definition subdivide_faces (m : meshes) : result (list face * meshes) :=
  vm <- verts_packed m ;; let '(vs, m) := vm in
  fm <- faces_packed m ;; let '(fs, m) := fm in
  em <- faces_packed_to_edges_packed argsort m ;; let '(f2e, m) := em in
  match f2e with
  | None => Fail EType
  | Some t => Ok (quarter (length vs) fs t, m)
  end.

Section Features.
Context {F : Type}.
Variable mean : F -> F -> F.

(* subdivide_meshes.py:224-333 subdivide_heterogenerous. A batch of one or more rows of edges and
   faces is indexed with the packed edges. *)
Definition subdivide_heterogeneous (m : meshes) (feats : option (list F)) : result (meshes * option (list F) * meshes) :=
  let N := mN m in
  vm <- verts_packed m ;; let '(verts, m) := vm in
  fm <- subdivide_faces m ;; let '(new_faces, m) := fm in
  em <- edges_packed argsort m ;; let '(edges, m) := em in
  im <- faces_packed_to_mesh_idx m ;; let '(face_mesh, m) := im in
  jm <- edges_packed_to_mesh_idx argsort m ;; let '(edge_mesh, m) := jm in
  num_edges <- bincount N edge_mesh ;;
  let num_verts := num_verts_per_mesh m in
  let num_faces := num_faces_per_mesh m in
  new_num <- add_sizes num_verts num_edges ;;
  let verts_sort := create_verts_index num_verts num_edges in
  ordered <- scatter_positions (sum_nat new_num) verts_sort ;;
  new_faces <- rmap (renumber ordered) new_faces ;;
  let face_sort := create_faces_index num_faces in
  new_faces <- take new_faces face_sort ;;
  new_face_mesh <- take (face_mesh ++ face_mesh ++ face_mesh ++ face_mesh) face_sort ;;
  new_num_faces <- bincount N new_face_mesh ;;
  mids <- edge_means mean_row verts edges ;;
  new_verts <- take (verts ++ mids) verts_sort ;;
  new_feats <- match feats with
               | None => Ok None
               | Some fs => ms <- edge_means mean fs edges ;; r <- take (fs ++ ms) verts_sort ;; Ok (Some r)
               end ;;
  verts_list <- packed_to_list new_verts new_num ;;
  faces_list <- packed_to_list new_faces new_num_faces ;;
  let starts := 0%nat :: cumsum (removelast new_num) in
  faces_list <- rmap (fun n => l <- rget faces_list n ;; s <- rget starts n ;; Ok (map (shift_face (- Z.of_nat s)) l)) (seq 0 N) ;;
  new_feats <- match new_feats with
               | None => Ok None
               | Some r => ls <- packed_to_list r new_num ;; match ls with [] => Fail ERuntime | _ => Ok (Some (concat ls)) end
               end ;;
  o <- new_list verts_list faces_list ;;
  Ok (o, new_feats, m).

(* subdivide_meshes.py:31-53: the precomputed faces, from the first mesh *)
Definition precompute (m : meshes) : result (list face) :=
  om <- getitem (XInt 0) m ;; fm <- subdivide_faces (fst om) ;; Ok (fst fm).

(* features are (N*V, D) or (N, V, D) *)
Inductive feats_arg := FPacked (l : list F) | FPadded (p : padded F).
(* Tensor.view(N, V, D) *)
Fixpoint rows_of (N V : nat) (l : list F) : list (list F) :=
  match N with O => [] | S N' => firstn V l :: rows_of N' V (skipn V l) end.
Definition view (N V : nat) (l : list F) : result (list (list F)) :=
  if (length l =? N * V)%nat then Ok (rows_of N V l) else Fail ERuntime.

(* subdivide_meshes.py:172-222 subdivide_homogeneous; N = len(meshes) *)
Definition subdivide_homogeneous (faces : list face) (m : meshes) (feats : option feats_arg) : result (meshes * option (list (list F)) * meshes) :=
  let N := mN m in
  vm <- verts_padded m ;; let '(verts, m) := vm in
  om <- getitem (XInt 0) m ;; let '(first, m) := om in
  em <- edges_packed argsort first ;;
  let edges := fst em in
  rows <- rmap (fun r => ms <- edge_means mean_row r edges ;; Ok (r ++ ms)) (rows verts) ;;
  new_feats <- match feats with
               | None => Ok None
               | Some a =>
                   fr <- match a with FPacked l => view (length rows) (dim1 verts) l | FPadded p => Ok (Meshes.rows p) end ;;
                   r <- rmap (fun r => ms <- edge_means mean r edges ;; Ok (r ++ ms)) fr ;; Ok (Some r)
               end ;;
  o <- new_padded (Pad (dim1 verts + length edges) rows) (Pad (length faces) (repeat faces N)) ;;
  Ok (o, new_feats, m).
End Features.
End Argsort.
