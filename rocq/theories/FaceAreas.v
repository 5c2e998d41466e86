(* Model of pytorch3d/csrc/face_areas_normals/face_areas_normals_cpu.cpp (the CUDA kernels in
   face_areas_normals.cu compute the same expressions and add with atomicAdd). Floats are reals. *)
From Verif Require Import Base RBase Geom.
Local Open Scope R_scope.

Definition face := (Z * Z * Z)%type.
Definition areaEps : R := / 1000000.

(* the row of a (V,3) tensor at an int64 index, C++ accessors do not check it *)
Definition vert_at (vs : list vec3) (i : Z) : result vec3 :=
  if (i <? 0)%Z then Fail EOutOfBounds else rget vs (Z.to_nat i).

(* face_areas_normals_cpu.cpp 25-61: one face *)
Definition area_normal (v0 v1 v2 : vec3) : R * vec3 :=
  let ax := x3 v1 - x3 v0 in let ay := y3 v1 - y3 v0 in let az := z3 v1 - z3 v0 in
  let bx := x3 v2 - x3 v0 in let by_ := y3 v2 - y3 v0 in let bz := z3 v2 - z3 v0 in
  let cx := ay * bz - az * by_ in
  let cy := az * bx - ax * bz in
  let cz := ax * by_ - ay * bx in
  let norm := sqrt (cx * cx + cy * cy + cz * cz) in
  let norm' := if Rltb norm areaEps then areaEps else norm in
  (norm / 2, V3 (cx / norm') (cy / norm') (cz / norm')).

Definition face_verts (vs : list vec3) (f : face) : result (vec3 * vec3 * vec3) :=
  let '(i0, i1, i2) := f in
  v0 <- vert_at vs i0 ;; v1 <- vert_at vs i1 ;; v2 <- vert_at vs i2 ;; Ok (v0, v1, v2).

(* FaceAreasNormalsForwardCpu, lines 12-64 *)
Definition face_areas_normals (vs : list vec3) (fs : list face) : result (list (R * vec3)) :=
  rmap (fun f => v <- face_verts vs f ;; let '(v0, v1, v2) := v in Ok (area_normal v0 v1 v2)) fs.

(* lines 81-216: the gradient of one face with respect to its three vertices; the expressions
   are copied as they are written *)
Definition area_normal_bwd (v0 v1 v2 : vec3) (ga : R) (gn : vec3) : vec3 * vec3 * vec3 :=
  let ax := x3 v1 - x3 v0 in let ay := y3 v1 - y3 v0 in let az := z3 v1 - z3 v0 in
  let bx := x3 v2 - x3 v0 in let by_ := y3 v2 - y3 v0 in let bz := z3 v2 - z3 v0 in
  let cx := ay * bz - az * by_ in
  let cy := az * bx - ax * bz in
  let cz := ax * by_ - ay * bx in
  let norm0 := sqrt (cx * cx + cy * cy + cz * cz) in
  let norm := if Rltb norm0 areaEps then areaEps else norm0 in
  let i1 := 1 / norm in let i2 := i1 ^ 2 in let i3 := i1 ^ 3 in
  let g0 := x3 gn in let g1 := y3 gn in let g2 := z3 gn in
  (V3
    (((- az + bz) * cy + (- by_ + ay) * cz) / 2 * i1 * ga
      + - cx * ((- az + bz) * cy + (- by_ + ay) * cz) * i3 * g0
      + ((- az + bz) - cy * ((- az + bz) * cy + (- by_ + ay) * cz) * i2) * i1 * g1
      + ((- by_ + ay) - cz * ((- az + bz) * cy + (- by_ + ay) * cz) * i2) * i1 * g2)
    (((- bz + az) * cx + (- ax + bx) * cz) / 2 * i1 * ga
      + ((- bz + az) - cx * ((- bz + az) * cx + (- ax + bx) * cz) * i2) * i1 * g0
      + - cy * ((- bz + az) * cx + (- ax + bx) * cz) * i3 * g1
      + ((- ax + bx) - cz * ((- bz + az) * cx + (- ax + bx) * cz) * i2) * i1 * g2)
    (((- ay + by_) * cx + (- bx + ax) * cy) / 2 * i1 * ga
      + ((- ay + by_) - cx * ((- ay + by_) * cx + (- bx + ax) * cy) * i2) * i1 * g0
      + ((- bx + ax) - cy * ((- ay + by_) * cx + (- bx + ax) * cy) * i2) * i1 * g1
      + - cz * ((- ay + by_) * cx + (- bx + ax) * cy) * i3 * g2),
   V3
    ((by_ * cz - bz * cy) / 2 * i1 * ga
      + - cx * (by_ * cz - bz * cy) * i3 * g0
      + (- bz - cy * (by_ * cz - bz * cy) * i2) * i1 * g1
      + (by_ - cz * (by_ * cz - bz * cy) * i2) * i1 * g2)
    ((bz * cx - bx * cz) / 2 * i1 * ga
      + (bz - cx * (bz * cx - bx * cz) * i2) * i1 * g0
      + - cy * (bz * cx - bx * cz) * i3 * g1
      + (- bx - cz * (bz * cx - bx * cz) * i2) * i1 * g2)
    ((bx * cy - by_ * cx) / 2 * i1 * ga
      + (- by_ - cx * (bx * cy - by_ * cx) * i2) * i1 * g0
      + (bx - cx * (bx * cy - by_ * cx) * i2) * i1 * g1
      + - cz * (bx * cy - by_ * cx) * i3 * g2),
   V3
    ((az * cy - ay * cz) / 2 * i1 * ga
      + - cx * (az * cy - ay * cz) * i3 * g0
      + (az - cy * (az * cy - ay * cz) * i2) * i1 * g1
      + (- ay - cz * (az * cy - ay * cz) * i2) * i1 * g2)
    ((ax * cz - az * cx) / 2 * i1 * ga
      + (- az - cx * (ax * cz - az * cx) * i2) * i1 * g0
      + - cy * (ax * cz - az * cx) * i3 * g1
      + (ax - cz * (ax * cz - az * cx) * i2) * i1 * g2)
    ((ay * cx - ax * cy) / 2 * i1 * ga
      + (ay - cx * (ay * cx - ax * cy) * i2) * i1 * g0
      + (- ax - cy * (ay * cx - ax * cy) * i2) * i1 * g1
      + - cz * (ay * cx - ax * cy) * i3 * g2)).

(* the additions into grad_verts that one face makes; on the GPU the additions of all faces
   arrive in any order *)
Definition face_adds (vs : list vec3) (f : face) (ga : R) (gn : vec3) : result (list (nat * vec3)) :=
  v <- face_verts vs f ;;
  let '(v0, v1, v2) := v in let '(i0, i1, i2) := f in
  let '(g0, g1, g2) := area_normal_bwd v0 v1 v2 ga gn in
  Ok [(Z.to_nat i0, g0); (Z.to_nat i1, g1); (Z.to_nat i2, g2)].

Definition all_adds (vs : list vec3) (fs : list face) (g : list (R * vec3)) : result (list (nat * vec3)) :=
  ls <- rmap (fun fg => face_adds vs (fst fg) (fst (snd fg)) (snd (snd fg))) (combine fs g) ;; Ok (concat ls).

Definition apply_add (acc : result (list vec3)) (w : nat * vec3) : result (list vec3) :=
  l <- acc ;; v <- rget l (fst w) ;; upd l (fst w) (add3 v (snd w)).

(* FaceAreasNormalsBackwardCpu, lines 66-219 *)
Definition face_areas_normals_bwd (vs : list vec3) (fs : list face) (g : list (R * vec3)) : result (list vec3) :=
  adds <- all_adds vs fs g ;;
  fold_left apply_add adds (Ok (repeat (V3 0 0 0) (length vs))).
