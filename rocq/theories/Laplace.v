(* Model of ops/laplacian_matrices.py (cot_laplacian, norm_laplacian; laplacian is in Meshes.v),
   ops/mesh_filtering.py, loss/mesh_laplacian_smoothing.py and loss/mesh_edge_loss.py. Sparse matrices are dense
   lists of rows, scalars are exact reals, textures and autograd are not modelled. Where the code indexes a tensor
   with packed indices, a negative index (which a Meshes object never holds) is an error here. *)
From Verif Require Import Base Packing RBase Geom FaceAreas Meshes.
Local Open Scope R_scope.

(* torch.mm of a (V, V) matrix and (V, 3) vertices; torch.sparse.sum(L, dim=1) *)
Definition vec_sum (l : list vec3) : vec3 := fold_right add3 (V3 0 0 0) l.
Definition mat_vecs (M : list (list R)) (vs : list vec3) : list vec3 :=
  map (fun row => vec_sum (map (fun p => scal3 (fst p) (snd p)) (combine row vs))) M.
Definition row_sums (M : list (list R)) : list R := map rsum M.

(* ---- laplacian_matrices.py:74-143 cot_laplacian ---- *)
(* 96-117: the area by Heron's formula, and the three cotangents *)
Definition cot_face (eps : R) (v0 v1 v2 : vec3) : R * (R * R * R) :=
  let A := norm3 (sub3 v1 v2) in let B := norm3 (sub3 v0 v2) in let C := norm3 (sub3 v0 v1) in
  let s := / 2 * (A + B + C) in
  let area := sqrt (Rmax (s * (s - A) * (s - B) * (s - C)) eps) in
  let A2 := A * A in let B2 := B * B in let C2 := C * C in
  (area, ((B2 + C2 - A2) / area / 4, (A2 + C2 - B2) / area / 4, (A2 + B2 - C2) / area / 4)).
(* 119-126: the entries of one face *)
Definition cot_entries (f : face) (c : R * R * R) : list (Z * Z * R) :=
  let '(i0, i1, i2) := f in let '(ca, cb, cc) := c in [(i1, i2, ca); (i2, i0, cb); (i0, i1, cc)].
Definition transposed (es : list (Z * Z * R)) : list (Z * Z * R) := map (fun e => let '(a, b, x) := e in (b, a, x)) es.
Definition corners_of (f : face) : list Z := let '(a, b, c) := f in [a; b; c].
Definition cot_laplacian (eps : R) (vs : list vec3) (fs : list face) : result (list (list R) * list R) :=
  cs <- rmap (fun f => v <- face_verts vs f ;; let '(v0, v1, v2) := v in Ok (cot_face eps v0 v1 v2)) fs ;;
  let L := concat (map (fun p => cot_entries (fst p) (snd (snd p))) (combine fs cs)) in
  let areas := concat (map (fun p => map (fun i => (i, fst (snd p))) (corners_of (fst p))) (combine fs cs)) in
  let inv := map (fun i => recip_pos (rsum (map (fun q => if (fst q =? Z.of_nat i)%Z then snd q else 0) areas))) (seq 0 (length vs)) in
  Ok (coo (length vs) (L ++ transposed L), inv).

(* ---- laplacian_matrices.py:146-181 norm_laplacian ---- *)
Definition edge_verts (vs : list vec3) (e : Z * Z) : result (vec3 * vec3) :=
  v0 <- vert_at vs (fst e) ;; v1 <- vert_at vs (snd e) ;; Ok (v0, v1).
Definition norm_laplacian (eps : R) (vs : list vec3) (es : list (Z * Z)) : result (list (list R)) :=
  ws <- rmap (fun e => v <- edge_verts vs e ;; Ok (/ (norm3 (sub3 (fst v) (snd v)) + eps))) es ;;
  let L := map (fun p => (fst (fst p), snd (fst p), snd p)) (combine es ws) in
  Ok (coo (length vs) (L ++ transposed L)).
Definition eps12 : R := / 1000000000000.

Section Argsort.
Variable argsort : list Z -> list nat.

(* 1.0 / counts.gather(0, idx) *)
Definition gathered (counts : list nat) (idx : list Z) : result (list nat) :=
  rmap (fun i => if (i <? 0)%Z then Fail EIndex else match nth_error counts (Z.to_nat i) with Some n => Ok n | None => Fail EIndex end) idx.
Definition weighted_sum (loss : list R) (ns : list nat) : R := rsum (map (fun p => fst p * (1 / INR (snd p))) (combine loss ns)).

(* ---- loss/mesh_edge_loss.py:11-52 ---- *)
Definition mesh_edge_loss (target : R) (m : meshes) : result (R * meshes) :=
  if isempty m then Ok (0, m)
  else
    r <- edges_packed argsort m ;; let '(es, m) := r in
    r <- verts_packed m ;; let '(vs, m) := r in
    r <- edges_packed_to_mesh_idx argsort m ;; let '(idx, m) := r in
    r <- num_edges_per_mesh argsort m ;; let '(ne, m) := r in
    match ne with
    | None => Fail EAttr
    | Some ne =>
        ns <- gathered ne idx ;;
        loss <- rmap (fun e => v <- edge_verts vs e ;; Ok ((norm3 (sub3 (fst v) (snd v)) - target) ^ 2)) es ;;
        Ok (weighted_sum loss ns / INR (mN m), m)
    end.

(* ---- loss/mesh_laplacian_smoothing.py:14-139 ---- *)
Inductive method := Uniform | Cot | CotCurv | OtherMethod.
Definition zip2 {A B C} (f : A -> B -> C) (a : list A) (b : list B) : list C := map (fun p => f (fst p) (snd p)) (combine a b).
Definition mesh_laplacian_smoothing (k : method) (m : meshes) : result (R * meshes) :=
  if isempty m then Ok (0, m)
  else
    r <- verts_packed m ;; let '(vs, m) := r in
    r <- faces_packed m ;; let '(fs, m) := r in
    let nv := num_verts_per_mesh m in
    r <- verts_packed_to_mesh_idx m ;; let '(idx, m) := r in
    ns <- gathered nv idx ;;
    r <- match k with
         | Uniform => r <- laplacian_packed argsort m ;; let '(L, m) := r in Ok (mat_vecs L vs, m)
         | Cot => r <- cot_laplacian eps12 vs fs ;; let '(L, _) := r in
                  let norm_w := map recip_pos (row_sums L) in
                  Ok (zip2 (fun u v => sub3 u v) (zip2 (fun u w => scal3 w u) (mat_vecs L vs) norm_w) vs, m)
         | CotCurv => r <- cot_laplacian eps12 vs fs ;; let '(L, inv) := r in
                      let norm_w := map (fun a => / 4 * a) inv in
                      Ok (zip2 (fun u w => scal3 w u) (zip2 sub3 (mat_vecs L vs) (zip2 scal3 (row_sums L) vs)) norm_w, m)
         | OtherMethod => Fail EValue
         end ;;
    let '(rows, m) := r in
    Ok (weighted_sum (map norm3 rows) ns / INR (mN m), m).

(* ---- ops/mesh_filtering.py:25-66 taubin_smoothing ----
   A vertex is None when it is nan: a vertex without an edge is divided by a total weight of zero. *)
Definition opt2 {A B C} (f : A -> B -> C) (a : option A) (b : option B) : option C :=
  match a, b with Some a, Some b => Some (f a b) | _, _ => None end.
Definition opt_sum (l : list (option (R * vec3))) : option (R * vec3) :=
  fold_right (fun x acc => opt2 (fun x acc => (fst x + fst acc, add3 (snd x) (snd acc))) x acc) (Some (0, V3 0 0 0)) l.
Definition nan_at (vs : list (option vec3)) (i : Z) : result (option vec3) := if (i <? 0)%Z then Fail EOutOfBounds else rget vs (Z.to_nat i).
(* the entries of L in the row of vertex i, with the vertices they are multiplied with *)
Definition edge_weight (eps : R) (v0 v1 : option vec3) : option R := opt2 (fun a b => / (norm3 (sub3 a b) + eps)) v0 v1.
Definition smooth_step (eps lam : R) (es : list (Z * Z)) (vs : list (option vec3)) : result (list (option vec3)) :=
  ws <- rmap (fun e => v0 <- nan_at vs (fst e) ;; v1 <- nan_at vs (snd e) ;;
                       Ok [(fst e, opt2 (fun w v => (w, scal3 w v)) (edge_weight eps v0 v1) v1);
                           (snd e, opt2 (fun w v => (w, scal3 w v)) (edge_weight eps v0 v1) v0)]) es ;;
  Ok (map (fun p => let mine := map snd (filter (fun q => (fst q =? Z.of_nat (fst p))%Z) (concat ws)) in
                    match opt_sum mine, snd p with
                    | Some (total, s), Some v => if Reqb total 0 then None else Some (add3 (scal3 (1 - lam) v) (div3 (scal3 lam s) total))
                    | _, _ => None
                    end) (combine (seq 0 (length vs)) vs)).
Fixpoint taubin_iterate (n : nat) (lam mu : R) (es : list (Z * Z)) (vs : list (option vec3)) : result (list (option vec3)) :=
  match n with
  | O => Ok vs
  | S n => vs <- smooth_step eps12 lam es vs ;; vs <- smooth_step eps12 mu es vs ;; taubin_iterate n lam mu es vs
  end.
(* the vertices and faces the new Meshes object is made of *)
Definition taubin_smoothing (lam mu : R) (n : nat) (m : meshes) : result (list (list (option vec3)) * list (list face) * meshes) :=
  r <- verts_packed m ;; let '(vs, m) := r in
  r <- edges_packed argsort m ;; let '(es, m) := r in
  vs <- taubin_iterate n lam mu es (map Some vs) ;;
  vl <- packed_to_list vs (num_verts_per_mesh m) ;;
  r <- faces_list m ;; let '(fl, m) := r in
  Ok (vl, fl, m).
End Argsort.
