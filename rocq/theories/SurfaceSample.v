(* Model of ops/sample_points_from_meshes.py (lines 24-178). Floats are reals, so the test for nan and inf (line 70) never
   fires. torch.multinomial and torch.rand are parameters: any function that keeps their documented contract
   (SurfaceSampleSpec.v). Vertex textures have three channels; TexturesUV and TexturesAtlas are not modelled here. *)
From Verif Require Import Packing.
From Verif Require Import Base RBase Geom FaceAreas Meshes PointMesh.
Local Open Scope R_scope.

(* x[mask] for a boolean mask over the first dimension *)
Fixpoint masked {T} (mask : list bool) (x : list T) : result (list T) :=
  match mask, x with
  | [], [] => Ok []
  | b :: mask, v :: x => l <- masked mask x ;; Ok (if b then v :: l else l)
  | _, _ => Fail EIndex
  end.
(* zeros[mask] = x: what the result contains *)
Fixpoint put_masked {T} (zero : T) (mask : list bool) (x : list T) : result (list T) :=
  match mask, x with
  | [], [] => Ok []
  | true :: mask, v :: x => l <- put_masked zero mask x ;; Ok (v :: l)
  | false :: mask, x => l <- put_masked zero mask x ;; Ok (zero :: l)
  | _, _ => Fail ERuntime
  end.

(* sample_points_from_meshes.py:172-178 _rand_barycentric_coords, one pair (u, v) *)
Definition bary_of (uv : R * R) : R * R * R :=
  let u_sqrt := sqrt (fst uv) in
  (1 - u_sqrt, u_sqrt * (1 - snd uv), u_sqrt * snd uv).
(* line 114; the same sum is the interpolation of vertex textures (ops/interp_face_attrs.py:100) *)
Definition combine3 (w : R * R * R) (t : tri) : vec3 :=
  let '(w0, w1, w2) := w in let '(a, b, c) := t in
  add3 (add3 (scal3 w0 a) (scal3 w1 b)) (scal3 w2 c).
(* sys.float_info.epsilon *)
Definition float_epsilon : R := / 2 ^ 52.
(* lines 121-124 *)
Definition unit_normal (t : tri) : vec3 :=
  let '(v0, v1, v2) := t in
  let n := cross3 (sub3 v1 v0) (sub3 v2 v1) in
  div3 n (Rmax (norm3 n) float_epsilon).
(* x[idx] for a two-dimensional index *)
Definition gather2 {T} (x : list T) (idx : list (list nat)) : result (list (list T)) := rmap (rmap (rget x)) idx.
Definition zip2 {A B C} (f : A -> B -> C) (x : list (list A)) (y : list (list B)) : list (list C) :=
  map (fun p => map (fun q => f (fst q) (snd q)) (combine (fst p) (snd p))) (combine x y).

Section Random.
(* weights, number of samples (replacement=True) -> indices per row *)
Variable multinomial : list (list R) -> nat -> result (list (list nat)).
(* torch.rand(2, size1, size2): the pairs (u, v) *)
Variable rand : nat -> nat -> list (list (R * R)).

Record sampled := Sampled { points : list (list vec3); normals : option (list (list vec3)); textures : option (list (list vec3)) }.

(* lines 67-158; features: the packed vertex features of the meshes' TexturesVertex, None if they have no textures *)
Definition sample_points_from_meshes (features : option (list vec3)) (num_samples : nat) (return_normals return_textures : bool) (m : meshes) : result (sampled * meshes) :=
  if isempty m then Fail EValue else
  r <- verts_packed m ;; let '(verts, m) := r in
  if (return_textures && match features with None => true | Some _ => false end)%bool then Fail EValue else
  r <- faces_packed m ;; let '(faces, m) := r in
  r <- mesh_to_faces_packed_first_idx m ;; let '(mesh_to_face, m) := r in
  let num_meshes := mN m in
  let num_valid_meshes := count_if (fun b => b) (valid m) in
  an <- face_areas_normals verts faces ;;
  max_faces <- maximum_of (num_faces_per_mesh m) ;;
  first <- masked (valid m) mesh_to_face ;;
  areas_padded <- packed_to_padded_cpu 0 (map fst an) first max_faces ;;
  drawn <- multinomial areas_padded num_samples ;;
  let sample_face_idxs := map (fun p => map (fun k => k + snd p)%nat (fst p)) (combine drawn first) in
  face_verts_ <- rmap (face_verts verts) faces ;;
  let w := map (map bary_of) (rand num_valid_meshes num_samples) in
  tris <- gather2 face_verts_ sample_face_idxs ;;
  samples <- put_masked (repeat (V3 0 0 0) num_samples) (valid m) (zip2 combine3 w tris) ;;
  ns <- (if return_normals then
           l <- gather2 (map unit_normal face_verts_) sample_face_idxs ;;
           l <- put_masked (repeat (V3 0 0 0) num_samples) (valid m) l ;;
           Ok (Some l)
         else Ok None) ;;
  ts <- (if return_textures then
           match features with
           | None => Fail EValue
           | Some features =>
               (* line 129: view(len(meshes), num_samples, 1, 1) *)
               if negb (length sample_face_idxs * num_samples =? num_meshes * num_samples)%nat then Fail ERuntime else
               face_features <- rmap (face_verts features) faces ;;
               texels <- gather2 face_features sample_face_idxs ;;
               Ok (Some (zip2 combine3 w texels))
           end
         else Ok None) ;;
  Ok (Sampled samples ns ts, m).
End Random.
