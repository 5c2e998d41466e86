(* Model of pytorch3d/structures/meshes.py: the Meshes class as a record of optional caches,
   one function per method.
   Simplifications: vertices are triples of reals; textures, devices, dtypes and autograd are
   not modelled; after an exception the object is not looked at any more; the six packed
   tensors, which the code always assigns together, are one optional field, as are face areas
   and face normals; tensors are values, so sharing of memory between objects is not modelled. *)
From Verif Require Import Base Packing RBase Geom FaceAreas.
Local Open Scope R_scope.

(* a tensor of shape (N, dim1, 3) *)
Record padded (A : Type) := Pad { dim1 : nat; rows : list (list A) }.
Arguments Pad {A} dim1 rows.
Arguments dim1 {A} p.
Arguments rows {A} p.

Record packed_t := Packed {
  pk_verts : list vec3; pk_vidx : list Z; pk_vfirst : list nat;
  pk_faces : list face; pk_fidx : list Z; pk_ffirst : list nat }.

(* num_edges_per_mesh, mesh_to_edges_packed_first_idx, faces_packed_to_edges_packed: they stay
   None for an empty batch *)
Record edges_t := Edges {
  ed_edges : list (Z * Z); ed_mesh : list Z;
  ed_rest : option (list nat * list nat * list (Z * Z * Z)) }.

Record meshes := Meshes {
  mN : nat; mV : nat; mF : nat;
  equisized : bool; valid : list bool;
  verts_l : option (list (list vec3)); faces_l : option (list (list face));
  verts_p : option (padded vec3); faces_p : option (padded face);
  nverts : list nat; nfaces : list nat;
  pk : option packed_t; p2p : option (list nat); ed : option edges_t;
  areas_normals : option (list (R * vec3)); vnormals : option (list vec3);
  lap : option (list (list R)) }.

Definition set_verts_l l m := Meshes (mN m) (mV m) (mF m) (equisized m) (valid m) l (faces_l m) (verts_p m) (faces_p m) (nverts m) (nfaces m) (pk m) (p2p m) (ed m) (areas_normals m) (vnormals m) (lap m).
Definition set_faces_l l m := Meshes (mN m) (mV m) (mF m) (equisized m) (valid m) (verts_l m) l (verts_p m) (faces_p m) (nverts m) (nfaces m) (pk m) (p2p m) (ed m) (areas_normals m) (vnormals m) (lap m).
Definition set_padded v f m := Meshes (mN m) (mV m) (mF m) (equisized m) (valid m) (verts_l m) (faces_l m) v f (nverts m) (nfaces m) (pk m) (p2p m) (ed m) (areas_normals m) (vnormals m) (lap m).
Definition set_sizes eq va nv nf m := Meshes (mN m) (mV m) (mF m) eq va (verts_l m) (faces_l m) (verts_p m) (faces_p m) nv nf (pk m) (p2p m) (ed m) (areas_normals m) (vnormals m) (lap m).
Definition set_pk k m := Meshes (mN m) (mV m) (mF m) (equisized m) (valid m) (verts_l m) (faces_l m) (verts_p m) (faces_p m) (nverts m) (nfaces m) k (p2p m) (ed m) (areas_normals m) (vnormals m) (lap m).
Definition set_p2p k m := Meshes (mN m) (mV m) (mF m) (equisized m) (valid m) (verts_l m) (faces_l m) (verts_p m) (faces_p m) (nverts m) (nfaces m) (pk m) k (ed m) (areas_normals m) (vnormals m) (lap m).
Definition set_ed k m := Meshes (mN m) (mV m) (mF m) (equisized m) (valid m) (verts_l m) (faces_l m) (verts_p m) (faces_p m) (nverts m) (nfaces m) (pk m) (p2p m) k (areas_normals m) (vnormals m) (lap m).
Definition set_an k m := Meshes (mN m) (mV m) (mF m) (equisized m) (valid m) (verts_l m) (faces_l m) (verts_p m) (faces_p m) (nverts m) (nfaces m) (pk m) (p2p m) (ed m) k (vnormals m) (lap m).
Definition set_vn k m := Meshes (mN m) (mV m) (mF m) (equisized m) (valid m) (verts_l m) (faces_l m) (verts_p m) (faces_p m) (nverts m) (nfaces m) (pk m) (p2p m) (ed m) (areas_normals m) k (lap m).
Definition set_lap k m := Meshes (mN m) (mV m) (mF m) (equisized m) (valid m) (verts_l m) (faces_l m) (verts_p m) (faces_p m) (nverts m) (nfaces m) (pk m) (p2p m) (ed m) (areas_normals m) (vnormals m) k.

(* meshes.py:499-507 isempty *)
Definition no_valid (N : nat) (va : list bool) : bool := (N =? 0)%nat || forallb negb va.
Definition isempty (m : meshes) : bool := no_valid (mN m) (valid m).

(* f.gt(-1).all(1) *)
Definition real_face (f : face) : bool := let '(a, b, c) := f in (-1 <? a)%Z && (-1 <? b)%Z && (-1 <? c)%Z.
Definition all_same (l : list nat) : bool := match l with [] => false | a :: l' => forallb (Nat.eqb a) l' end.

(* meshes.py:337-371 and 404-410: Meshes(verts=list, faces=list). The two lists may have
   different lengths, the code does not check. *)
Definition new_list (verts : list (list vec3)) (faces : list (list face)) : result meshes :=
  let fl := map (filter real_face) faces in
  let N := length verts in
  match N, faces with
  | O, _ => Ok (Meshes 0 0 0 false [] (Some verts) (Some fl) None None [] [] None None None None None None)
  | _, [] => Fail ERuntime       (* max() of an empty tensor, line 357 *)
  | _, _ =>
      let nv := map (@length vec3) verts in let nf := map (@length face) fl in
      let va := map (fun vf => negb (length (fst vf) =? 0) && negb (length (snd vf) =? 0))%nat (combine verts fl) in
      let em := no_valid N va in
      Ok (Meshes N (max_nat nv) (max_nat nf) (all_same nv && all_same nf) va (Some verts) (Some fl) None None
            (if em then [] else nv) (if em then [] else nf) None None None None None None)
  end.

(* a padding row directly followed by a real one *)
Fixpoint gap (l : list bool) : bool :=
  match l with
  | a :: ((b :: _) as l') => (negb a && b) || gap l'
  | _ => false
  end.

(* meshes.py:373-410: Meshes(verts=tensor, faces=tensor) *)
Definition new_padded (verts : padded vec3) (faces : padded face) : result meshes :=
  let N := length (rows verts) in
  match N, rows faces with
  | O, _ => Ok (Meshes 0 (dim1 verts) 0 false [] None None (Some verts) (Some faces) [] [] None None None None None None)
  | _, [] => Fail ERuntime       (* max() of an empty tensor, line 394 *)
  | _, _ =>
      let np := map (map real_face) (rows faces) in
      let nf := map (count_if (fun b => b)) np in
      if existsb gap np then Fail EValue
      else
        let va := map (fun n => negb (n =? 0))%nat nf in
        let em := no_valid N va in
        Ok (Meshes N (dim1 verts) (max_nat nf) (all_same nf) va None None (Some verts) (Some faces)
              (if em then [] else repeat (dim1 verts) N) (if em then [] else nf) None None None None None None)
  end.

(* meshes.py:432-460 _set_verts_normals *)
Inductive normals_arg := NList (l : list (list vec3)) | NPadded (p : padded vec3).
Definition set_verts_normals (a : normals_arg) (m : meshes) : result meshes :=
  match a with
  | NList l =>
      if negb (length l =? mN m)%nat then Fail EValue
      else if existsb (fun p => negb (length (fst p) =? snd p))%nat (combine l (nverts m)) then Fail EValue
      else match l with
           | [] => Fail ERuntime                           (* torch.cat([]) *)
           | _ => Ok (set_vn (Some (concat l)) m)
           end
  | NPadded p =>
      if negb (length (rows p) =? mN m)%nat then Fail EValue
      else x <- padded_to_packed (dim1 p) (rows p) (Some (nverts m)) None ;; Ok (set_vn (Some x) m)
  end.

(* structures/utils.py:82-116 padded_to_list with one size per element *)
Definition unpad {A} (p : padded A) (sizes : list nat) : result (list (list A)) :=
  if negb (length (rows p) =? length sizes)%nat then Fail EValue
  else Ok (map (fun rs => firstn (snd rs) (fst rs)) (combine (rows p) sizes)).

(* meshes.py:509-522, 524-537 *)
Definition verts_list (m : meshes) : result (list (list vec3) * meshes) :=
  match verts_l m, verts_p m with
  | Some l, _ => Ok (l, m)
  | None, None => Fail ERuntime
  | None, Some p => l <- unpad p (nverts m) ;; Ok (l, set_verts_l (Some l) m)
  end.
Definition faces_list (m : meshes) : result (list (list face) * meshes) :=
  match faces_l m, faces_p m with
  | Some l, _ => Ok (l, m)
  | None, None => Fail ERuntime
  | None, Some p => l <- unpad p (nfaces m) ;; Ok (l, set_faces_l (Some l) m)
  end.

(* structures/utils.py:19-79 list_to_padded on tensors of shape (n, 3) with pad_size (sz, 3) *)
Definition pad_rows {A} (eqs : bool) (sz : nat) (fill : A) (l : list (list A)) : result (padded A) :=
  match l with
  | [] => Fail (if eqs then ERuntime else EValue)
  | y :: _ =>
      if eqs then
        if forallb (fun z => length z =? length y)%nat l then Ok (Pad (length y) l) else Fail ERuntime
      else
        rs <- rmap (fun z => if (length z =? 0)%nat then Ok (repeat fill sz)
                             else if (length z <=? sz)%nat then Ok (z ++ repeat fill (sz - length z))
                             else if (length z =? 1) && (sz =? 0)%nat then Ok []
                             else Fail ERuntime) l ;;
        Ok (Pad sz rs)
  end.

Definition zero_row : vec3 := V3 0 0 0.
Definition pad_face : face := (-1, -1, -1)%Z.

(* meshes.py:896-927 _compute_padded *)
Definition compute_padded (refresh : bool) (m : meshes) : result meshes :=
  match refresh, verts_p m, faces_p m with
  | false, Some _, Some _ => Ok m
  | _, _, _ =>
      vm <- verts_list m ;; let '(vl, m) := vm in
      fm <- faces_list m ;; let '(fl, m) := fm in
      if isempty m then Ok (set_padded (Some (Pad 0 (repeat [] (mN m)))) (Some (Pad 0 (repeat [] (mN m)))) m)
      else
        fp <- pad_rows (equisized m) (mF m) pad_face fl ;;
        vp <- pad_rows (equisized m) (mV m) zero_row vl ;;
        Ok (set_padded (Some vp) (Some fp) m)
  end.

Definition shift_face (o : Z) (f : face) : face := let '(a, b, c) := f in (a + o, b + o, c + o)%Z.
Definition nat_list_eqb (a b : list nat) : bool := if list_eq_dec Nat.eq_dec a b then true else false.

(* meshes.py:930-1010 _compute_packed. torch.allclose on equal sizes is equality. *)
Definition compute_packed (refresh : bool) (m : meshes) : result meshes :=
  match refresh, pk m with
  | false, Some _ => Ok m
  | _, _ =>
      vm <- verts_list m ;; let '(vl, m) := vm in
      fm <- faces_list m ;; let '(fl, m) := fm in
      if isempty m then
        Ok (set_sizes (equisized m) (valid m) [] [] (set_pk (Some (Packed [] [] [] [] [] [])) m))
      else
        v <- list_to_packed vl ;; let '(vp, vn, vf, vi) := v in
        if negb (nat_list_eqb (nverts m) vn) then Fail EValue else
        f <- list_to_packed fl ;; let '(fp, fn, ff, fi) := f in
        if negb (nat_list_eqb (nfaces m) fn) then Fail EValue else
        fo <- rmap (fun fj => o <- match nth_error vf (Z.to_nat (snd fj)) with Some o => Ok o | None => Fail EIndex end ;;
                              Ok (shift_face (Z.of_nat o) (fst fj))) (combine fp fi) ;;
        Ok (set_pk (Some (Packed vp vi vf fo fi ff)) m)
  end.

Definition with_packed {A} (m : meshes) (k : packed_t -> A) : result (A * meshes) :=
  m <- compute_packed false m ;;
  match pk m with Some p => Ok (k p, m) | None => Fail ERuntime end.

(* meshes.py:539-658 the packed accessors *)
Definition verts_packed m := with_packed m pk_verts.
Definition verts_packed_to_mesh_idx m := with_packed m pk_vidx.
Definition mesh_to_verts_packed_first_idx m := with_packed m pk_vfirst.
Definition faces_packed m := with_packed m pk_faces.
Definition faces_packed_to_mesh_idx m := with_packed m pk_fidx.
Definition mesh_to_faces_packed_first_idx m := with_packed m pk_ffirst.
Definition num_verts_per_mesh m := nverts m.
Definition num_faces_per_mesh m := nfaces m.

(* meshes.py:660-680 *)
Definition verts_padded (m : meshes) : result (padded vec3 * meshes) :=
  m <- compute_padded false m ;; match verts_p m with Some p => Ok (p, m) | None => Fail ERuntime end.
Definition faces_padded (m : meshes) : result (padded face * meshes) :=
  m <- compute_padded false m ;; match faces_p m with Some p => Ok (p, m) | None => Fail ERuntime end.

(* meshes.py:746-772 verts_padded_to_packed_idx; torch.cat([]) raises *)
Definition verts_padded_to_packed_idx (m : meshes) : result (list nat * meshes) :=
  match p2p m with
  | Some l => Ok (l, m)
  | None =>
      match nverts m with
      | [] => Fail ERuntime
      | nv => let l := concat (map (fun iv => map (fun j => j + fst iv * mV m)%nat (seq 0 (snd iv)))
                                   (combine (seq 0 (length nv)) nv)) in
              Ok (l, set_p2p (Some l) m)
      end
  end.

(* ---- edges, meshes.py:1012-1116 ---- *)
Definition sort2 (e : Z * Z) : Z * Z := if (fst e <=? snd e)%Z then e else (snd e, fst e).
Definition face_e12 (f : face) : Z * Z := let '(a, b, c) := f in (b, c).
Definition face_e20 (f : face) : Z * Z := let '(a, b, c) := f in (c, a).
Definition face_e01 (f : face) : Z * Z := let '(a, b, c) := f in (a, b).

(* torch.unique on a 1D tensor: ascending, without repetitions *)
Fixpoint insert_uniq (x : Z) (l : list Z) : list Z :=
  match l with
  | [] => [x]
  | y :: l' => if (x <? y)%Z then x :: l else if (x =? y)%Z then l else y :: insert_uniq x l'
  end.
Definition unique (l : list Z) : list Z := fold_right insert_uniq [] l.
(* return_inverse: the position of each value in the unique list *)
Fixpoint index_of (x : Z) (l : list Z) : Z :=
  match l with [] => 0 | y :: l' => if (x =? y)%Z then 0 else 1 + index_of x l' end%Z.

(* sort_idx[unique_mask]: the first of every run of equal values in sorted order *)
Fixpoint run_heads (prev : option Z) (sorted : list Z) (idx : list nat) : list nat :=
  match sorted, idx with
  | h :: s', i :: i' =>
      match prev with
      | Some p => if (h =? p)%Z then run_heads (Some h) s' i' else i :: run_heads (Some h) s' i'
      | None => i :: run_heads (Some h) s' i'
      end
  | _, _ => []
  end.

(* scatter_add_ of ones *)
Definition count_mesh (N : nat) (l : list Z) : list nat := map (fun n => count_if (Z.eqb (Z.of_nat n)) l) (seq 0 N).
Fixpoint zip3 {A B C} (a : list A) (b : list B) (c : list C) : list (A * B * C) :=
  match a, b, c with x :: a', y :: b', z :: c' => (x, y, z) :: zip3 a' b' c' | _, _, _ => [] end.

Section Argsort.
(* torch.sort(edges_hash) is not stable: any permutation that sorts may come back *)
Variable argsort : list Z -> list nat.

Definition edges_of (N V : nat) (faces : list face) (fidx : list Z) : result edges_t :=
  let es := map sort2 (map face_e12 faces ++ map face_e20 faces ++ map face_e01 faces) in
  let e2m := fidx ++ fidx ++ fidx in
  let V := Z.of_nat V in
  let hash := map (fun e => V * fst e + snd e)%Z es in
  let u := unique hash in
  let inv := map (fun h => index_of h u) hash in
  let si := argsort hash in
  sorted <- rmap (fun i => match nth_error hash i with Some h => Ok h | None => Fail EIndex end) si ;;
  em <- rmap (fun i => match nth_error e2m i with Some x => Ok x | None => Fail EIndex end) (run_heads None sorted si) ;;
  let F := length faces in
  let f2e := zip3 (firstn F inv) (firstn F (skipn F inv)) (firstn F (skipn (F + F) inv)) in
  let ne := count_mesh N em in
  Ok (Edges (map (fun h => (h / V, h mod V)%Z) u) em
        (Some (ne, match ne with [] => [] | _ => 0%nat :: cumsum (removelast ne) end, f2e))).

Definition edges_complete (m : meshes) : bool :=
  match ed m, pk m with
  | Some (Edges _ _ (Some _)), Some _ => true
  | _, _ => false
  end.
Definition compute_edges (m : meshes) : result meshes :=
  if edges_complete m then Ok m
  else if isempty m then Ok (set_ed (Some (Edges [] [] (match ed m with Some e => ed_rest e | None => None end))) m)
  else
    fm <- faces_packed m ;; let '(fs, m) := fm in
    match pk m with
    | None => Fail ERuntime
    | Some p => e <- edges_of (mN m) (length (pk_verts p)) fs (pk_fidx p) ;; Ok (set_ed (Some e) m)
    end.
Definition with_edges {A} (m : meshes) (k : edges_t -> A) : result (A * meshes) :=
  m <- compute_edges m ;; match ed m with Some e => Ok (k e, m) | None => Fail ERuntime end.
(* meshes.py:692-744. The last three return None for an empty batch. *)
Definition edges_packed m := with_edges m ed_edges.
Definition edges_packed_to_mesh_idx m := with_edges m ed_mesh.
Definition num_edges_per_mesh m := with_edges m (fun e => option_map (fun r => fst (fst r)) (ed_rest e)).
Definition mesh_to_edges_packed_first_idx m := with_edges m (fun e => option_map (fun r => snd (fst r)) (ed_rest e)).
Definition faces_packed_to_edges_packed m := with_edges m (fun e => option_map snd (ed_rest e)).

(* ---- ops/laplacian_matrices.py:23-72 laplacian, as a dense matrix; sparse_coo_tensor adds
   up duplicate entries ---- *)
Definition coo (n : nat) (entries : list (Z * Z * R)) : list (list R) :=
  map (fun i => map (fun j => rsum (map (fun e => let '(a, b, x) := e in
    if ((a =? Z.of_nat i) && (b =? Z.of_nat j))%Z then x else 0) entries)) (seq 0 n)) (seq 0 n).
Definition degree (both : list (Z * Z)) (i : Z) : R := rsum (map (fun e => if (fst e =? i)%Z then 1 else 0) both).
Definition recip_pos (x : R) : R := if Rltb 0 x then / x else x.
Definition laplacian (V : nat) (edges : list (Z * Z)) : list (list R) :=
  let both := edges ++ map (fun e => (snd e, fst e)) edges in
  coo V (map (fun e => (fst e, snd e, recip_pos (degree both (fst e)))) both
         ++ map (fun i => (Z.of_nat i, Z.of_nat i, -1)) (seq 0 V)).

(* meshes.py:1118-1145 _compute_laplacian_packed *)
Definition laplacian_packed (m : meshes) : result (list (list R) * meshes) :=
  match lap m with
  | Some l => Ok (l, m)
  | None =>
      if isempty m then Ok ([], set_lap (Some []) m)
      else
        vm <- verts_packed m ;; let '(vs, m) := vm in
        em <- edges_packed m ;; let '(es, m) := em in
        let l := laplacian (length vs) es in Ok (l, set_lap (Some l) m)
  end.

(* ---- face areas and normals, meshes.py:870-894 ---- *)
Definition compute_areas (refresh : bool) (m : meshes) : result meshes :=
  match refresh, areas_normals m with
  | false, Some _ => Ok m
  | _, _ =>
      fm <- faces_packed m ;; let '(fs, m) := fm in
      vm <- verts_packed m ;; let '(vs, m) := vm in
      l <- face_areas_normals vs fs ;; Ok (set_an (Some l) m)
  end.
Definition faces_areas_packed (m : meshes) : result (list R * meshes) :=
  m <- compute_areas false m ;; match areas_normals m with Some l => Ok (map fst l, m) | None => Fail ERuntime end.
Definition faces_normals_packed (m : meshes) : result (list vec3 * meshes) :=
  m <- compute_areas false m ;; match areas_normals m with Some l => Ok (map snd l, m) | None => Fail ERuntime end.

(* ---- vertex normals, meshes.py (_compute_vertex_normals) ---- *)
(* torch advanced indexing: out of range raises; negative indices do not occur in faces *)
Definition row_at (vs : list vec3) (i : Z) : result vec3 :=
  if (i <? 0)%Z then Fail EIndex else match nth_error vs (Z.to_nat i) with Some v => Ok v | None => Fail EIndex end.
Definition face_cross (vs : list vec3) (f : face) : result vec3 :=
  let '(i0, i1, i2) := f in
  v0 <- row_at vs i0 ;; v1 <- row_at vs i1 ;; v2 <- row_at vs i2 ;;
  Ok (cross3 (sub3 v2 v1) (sub3 v0 v1)).
(* index_add(0, idx, src) *)
Definition index_add (acc : list vec3) (idx : list Z) (src : list vec3) : result (list vec3) :=
  rfold (fun acc p => v <- row_at acc (fst p) ;; upd acc (Z.to_nat (fst p)) (add3 v (snd p))) (combine idx src) acc.
(* torch.nn.functional.normalize(eps=1e-6) *)
Definition normalize6 (v : vec3) : vec3 := div3 v (Rmax (norm3 v) (/ 1000000)).
Definition vertex_normals (vs : list vec3) (fs : list face) : result (list vec3) :=
  ns <- rmap (face_cross vs) fs ;;
  a <- index_add (repeat zero_row (length vs)) (map (fun f => fst (fst f)) fs) ns ;;
  a <- index_add a (map (fun f => snd (fst f)) fs) ns ;;
  a <- index_add a (map snd fs) ns ;;
  Ok (map normalize6 a).
Definition compute_vnormals (refresh : bool) (m : meshes) : result meshes :=
  match refresh, vnormals m with
  | false, Some _ => Ok m
  | _, _ =>
      if isempty m then Ok (set_vn (Some (repeat zero_row (mN m))) m)
      else
        fm <- faces_packed m ;; let '(fs, m) := fm in
        vm <- verts_packed m ;; let '(vs, m) := vm in
        l <- vertex_normals vs fs ;; Ok (set_vn (Some l) m)
  end.
Definition verts_normals_packed (m : meshes) : result (list vec3 * meshes) :=
  m <- compute_vnormals false m ;; match vnormals m with Some l => Ok (l, m) | None => Fail ERuntime end.
(* verts_normals_list, verts_normals_padded *)
Definition verts_normals_list (m : meshes) : result (list (list vec3) * meshes) :=
  if isempty m then Ok (repeat [] (mN m), m)
  else lm <- verts_normals_packed m ;; let '(l, m) := lm in
       r <- packed_to_list l (nverts m) ;; Ok (r, m).
Definition verts_normals_padded (m : meshes) : result (padded vec3 * meshes) :=
  if isempty m then Ok (Pad 0 (repeat [] (mN m)), m)
  else lm <- verts_normals_list m ;; let '(l, m) := lm in
       r <- pad_rows (equisized m) (mV m) zero_row l ;; Ok (r, m).
Definition faces_normals_list (m : meshes) : result (list (list vec3) * meshes) :=
  if isempty m then Ok (repeat [] (mN m), m)
  else lm <- faces_normals_packed m ;; let '(l, m) := lm in
       r <- packed_to_list l (nfaces m) ;; Ok (r, m).
Definition faces_normals_padded (m : meshes) : result (padded vec3 * meshes) :=
  if isempty m then Ok (Pad 0 (repeat [] (mN m)), m)
  else lm <- faces_normals_list m ;; let '(l, m) := lm in
       r <- pad_rows (equisized m) (mF m) zero_row l ;; Ok (r, m).

(* ---- clone / detach / to, meshes.py:1147-1262: the lists go through the constructor and
   every internal tensor is copied; equisized is not a tensor and comes from the constructor ---- *)
Definition or_else {A} (a b : option A) : option A := match a with Some _ => a | None => b end.
Definition clone (m : meshes) : result (meshes * meshes) :=
  vm <- verts_list m ;; let '(vl, m) := vm in
  fm <- faces_list m ;; let '(fl, m) := fm in
  o <- new_list vl fl ;;
  Ok (Meshes (mN o) (mV o) (mF o) (equisized o) (valid m) (verts_l o) (faces_l o)
        (verts_p m) (faces_p m) (nverts m) (nfaces m) (pk m) (p2p m) (ed m) (areas_normals m) (vnormals m) (lap m), m).

(* ---- in place changes ---- *)
Inductive offset := OneOffset (o : vec3) | AllOffsets (l : list vec3).

(* self._verts_padded[i, : verts.shape[0], :] = verts. Simplification: writing one row into a
   padded tensor without rows, which broadcasting allows, is an error here. *)
Fixpoint write_rows (rs vs : list (list vec3)) : result (list (list vec3)) :=
  match vs, rs with
  | [], _ => Ok rs
  | v :: vs', [] => if (length v =? 0)%nat then write_rows [] vs' else Fail EIndex
  | v :: vs', r :: rs' =>
      if (length v =? 0)%nat then l <- write_rows rs' vs' ;; Ok (r :: l)
      else if (length v <=? length r)%nat then l <- write_rows rs' vs' ;; Ok ((v ++ skipn (length v) r) :: l)
      else Fail ERuntime
  end.
Definition write_padded (m : meshes) (vl : list (list vec3)) : result meshes :=
  match verts_p m with
  | None => Ok m
  | Some p => rs <- write_rows (rows p) vl ;; Ok (set_padded (Some (Pad (dim1 p) rs)) (faces_p m) m)
  end.
Definition add_rows (a b : list vec3) : list vec3 := map (fun p => add3 (fst p) (snd p)) (combine a b).

(* meshes.py offset_verts_ *)
Definition offset_verts_ (o : offset) (m : meshes) : result meshes :=
  vm <- verts_packed m ;; let '(vs, m) := vm in
  let '(off, update) := match o with OneOffset v => (repeat v (length vs), false) | AllOffsets l => (l, true) end in
  if negb (length off =? length vs)%nat then Fail EValue
  else
    let vs' := add_rows vs off in
    match pk m with
    | None => Fail ERuntime
    | Some p =>
        let m := set_pk (Some (Packed vs' (pk_vidx p) (pk_vfirst p) (pk_faces p) (pk_fidx p) (pk_ffirst p))) m in
        vl <- packed_to_list vs' (nverts m) ;;
        let m := set_verts_l (Some vl) m in
        m <- write_padded m vl ;;
        m <- match areas_normals m with Some _ => if update then compute_areas true m else Ok m | None => Ok m end ;;
        match vnormals m with Some _ => if update then compute_vnormals true m else Ok m | None => Ok m end
    end.

(* meshes.py scale_verts_ *)
Inductive scale_arg := OneScale (s : R) | AllScales (l : list R).
Definition scale_verts_ (s : scale_arg) (m : meshes) : result meshes :=
  let sc := match s with OneScale x => repeat x (mN m) | AllScales l => l end in
  vm <- verts_list m ;; let '(vl, m) := vm in
  if (length sc <? length vl)%nat then Fail EIndex
  else
    let vl' := map (fun p => map (scal3 (fst p)) (snd p)) (combine sc vl) in
    let m := set_verts_l (Some vl') m in
    m <- match pk m with
         | None => Ok m
         | Some p => match vl' with
                     | [] => Fail ERuntime                  (* torch.cat([]) *)
                     | _ => Ok (set_pk (Some (Packed (concat vl') (pk_vidx p) (pk_vfirst p) (pk_faces p) (pk_fidx p) (pk_ffirst p))) m)
                     end
         end ;;
    m <- write_padded m vl' ;;
    match areas_normals m with Some _ => compute_areas true m | None => Ok m end.

(* meshes.py update_padded: returns the new object and the old one with its caches *)
Definition update_padded (nv : padded vec3) (m : meshes) : result (meshes * meshes) :=
  if negb (length (rows nv) =? mN m)%nat then Fail EValue
  else if negb (dim1 nv =? mV m)%nat then Fail EValue
  else
    fm <- faces_padded m ;; let '(fp, m) := fm in
    new <- new_padded nv fp ;;
    if negb ((mN new =? mN m) && (mV new =? mV m) && (mF new =? mF m))%nat then Fail EValue
    else
      let new := set_faces_l (faces_l m) (set_sizes (equisized m) (valid m) (nverts m) (nfaces m) new) in
      r <- match pk m with
           | None => Ok (new, m)
           | Some p =>
               im <- verts_padded_to_packed_idx m ;; let '(idx, m) := im in
               vs <- rmap (fun k => match nth_error (concat (rows nv)) k with Some v => Ok v | None => Fail EIndex end) idx ;;
               Ok (set_p2p (Some idx) (set_pk (Some (Packed vs (pk_vidx p) (pk_vfirst p) (pk_faces p) (pk_fidx p) (pk_ffirst p))) new), m)
           end ;;
      let '(new, m) := r in
      r <- match ed m with
           | None => Ok new
           | Some e => match ed_rest e with
                       | None => Fail ERuntime               (* assert torch.is_tensor(None) *)
                       | Some _ => Ok (set_ed (Some e) new)
                       end
           end ;;
      let new := match lap m with None => r | Some l => set_lap (Some l) r end in
      Ok (new, m).

(* ---- batches ---- *)
Inductive mindex :=
| XInt (i : Z) | XSlice (start stop : nat) | XList (l : list Z) | XMask (b : list bool).

(* Python list indexing: negative indices count from the end *)
Definition py_nth {A} (l : list A) (i : Z) : result A :=
  let j := if (i <? 0)%Z then (i + Z.of_nat (length l))%Z else i in
  if (j <? 0)%Z then Fail EIndex else match nth_error l (Z.to_nat j) with Some a => Ok a | None => Fail EIndex end.
Definition py_slice {A} (l : list A) (a b : nat) : list A := firstn (b - a) (skipn a l).
Definition pick {A} (l : list A) (ix : mindex) : result (list A) :=
  match ix with
  | XInt i => a <- py_nth l i ;; Ok [a]
  | XSlice a b => Ok (py_slice l a b)
  | XList is => rmap (py_nth l) is
  | XMask b => rmap (py_nth l) (map (fun p => Z.of_nat (fst p)) (filter (fun p => snd p) (combine (seq 0 (length b)) b)))
  end.

(* meshes.py:465-497 __getitem__. Slices have step 1 and non-negative bounds. *)
Definition getitem (ix : mindex) (m : meshes) : result (meshes * meshes) :=
  vm <- verts_list m ;; let '(vl, m) := vm in
  fm <- faces_list m ;; let '(fl, m) := fm in
  vs <- pick vl ix ;; fs <- pick fl ix ;;
  o <- new_list vs fs ;; Ok (o, m).

(* split *)
Fixpoint split_from (cur : nat) (sizes : list nat) (m : meshes) : result (list meshes * meshes) :=
  match sizes with
  | [] => Ok ([], m)
  | n :: ss => om <- getitem (XSlice cur (cur + n)) m ;; let '(o, m) := om in
               rm <- split_from (cur + n) ss m ;; let '(r, m) := rm in Ok (o :: r, m)
  end.
Definition split (sizes : list nat) (m : meshes) := split_from 0 sizes m.

(* extend *)
Definition extend (n : Z) (m : meshes) : result (meshes * meshes) :=
  if (n <=? 0)%Z then Fail EValue
  else
    vm <- verts_list m ;; let '(vl, m) := vm in
    fm <- faces_list m ;; let '(fl, m) := fm in
    let ps := combine vl fl in
    o <- new_list (flat_map (fun p => repeat (fst p) (Z.to_nat n)) ps) (flat_map (fun p => repeat (snd p) (Z.to_nat n)) ps) ;;
    Ok (o, m).

(* join_meshes_as_batch; the argument objects only gain list caches, which is not returned *)
Definition join_batch (l : list meshes) : result meshes :=
  vs <- rmap (fun m => vm <- verts_list m ;; Ok (fst vm)) l ;;
  fs <- rmap (fun m => fm <- faces_list m ;; Ok (fst fm)) l ;;
  new_list (concat vs) (concat fs).

(* join_meshes_as_scene of one Meshes object; of a list: join_batch first *)
Definition join_scene (m : meshes) : result meshes :=
  if (mN m =? 1)%nat then Ok m
  else
    vm <- verts_packed m ;; let '(vs, m) := vm in
    fm <- faces_packed m ;; let '(fs, _) := fm in
    new_padded (Pad (length vs) [vs]) (Pad (length fs) [fs]).

(* get_mesh_verts_faces *)
Definition get_mesh_verts_faces (i : Z) (m : meshes) : result (list vec3 * list face) :=
  if (i <? 0)%Z || (Z.of_nat (mN m) <? i)%Z then Fail EValue
  else
    vm <- verts_list m ;; let '(vl, m) := vm in
    fm <- faces_list m ;; let '(fl, m) := fm in
    v <- py_nth vl i ;; f <- py_nth fl i ;; Ok (v, f).

(* get_bounding_boxes: min() / max() over an empty dimension raises, torch.stack([]) too *)
Definition min_max (l : list R) : result (R * R) :=
  match l with [] => Fail EIndex | a :: l' => Ok (fold_left Rmin l' a, fold_left Rmax l' a) end.
Definition bbox (vs : list vec3) : result ((R * R) * (R * R) * (R * R)) :=
  x <- min_max (map x3 vs) ;; y <- min_max (map y3 vs) ;; z <- min_max (map z3 vs) ;; Ok (x, y, z).
Definition get_bounding_boxes (m : meshes) : result (list ((R * R) * (R * R) * (R * R))) :=
  vm <- verts_list m ;; match fst vm with [] => Fail ERuntime | l => rmap bbox l end.

(* submeshes: for every mesh a list of lists of face ids. Python indexing of a tensor of faces
   accepts negative ids. *)
Definition corners (f : face) : list Z := let '(a, b, c) := f in [a; b; c].
Definition submesh (vs : list vec3) (fs : list face) (ids : list Z) : result (list vec3 * list face) :=
  keep <- rmap (py_nth fs) ids ;;
  let u := unique (flat_map corners keep) in
  sv <- rmap (py_nth vs) u ;;
  Ok (sv, map (fun f => let '(a, b, c) := f in (index_of a u, index_of b u, index_of c u)) keep).
Definition submeshes (ids : list (list (list Z))) (m : meshes) : result meshes :=
  if negb (length ids =? mN m)%nat then Fail EValue
  else
    vm <- verts_list m ;; let '(vl, m) := vm in
    fm <- faces_list m ;; let '(fl, m) := fm in
    subs <- rmap (fun p => let '(is, (fs, vs)) := p in rmap (submesh vs fs) is) (combine ids (combine fl vl)) ;;
    new_list (map fst (concat subs)) (map snd (concat subs)).
End Argsort.
