(* Model of pytorch3d/utils/ico_sphere.py and pytorch3d/utils/torus.py. Coordinates are reals instead
   of float32; devices are not modelled. *)
From Verif Require Import Base Packing RBase Geom FaceAreas Meshes Subdivide.
Local Open Scope R_scope.

(* utils/ico_sphere.py:17-30 *)
Definition lo : R := 5257 / 10000.
Definition hi : R := 8507 / 10000.
Definition ico_verts0 : list vec3 :=
  [V3 (- lo) hi 0; V3 lo hi 0; V3 (- lo) (- hi) 0; V3 lo (- hi) 0;
   V3 0 (- lo) hi; V3 0 lo hi; V3 0 (- lo) (- hi); V3 0 lo (- hi);
   V3 hi 0 (- lo); V3 hi 0 lo; V3 (- hi) 0 (- lo); V3 (- hi) 0 lo].
(* utils/ico_sphere.py:34-55 *)
Definition ico_faces0 : list face :=
  [(0, 11, 5); (0, 5, 1); (0, 1, 7); (0, 7, 10); (0, 10, 11);
   (1, 5, 9); (5, 11, 4); (11, 10, 2); (10, 7, 6); (7, 1, 8);
   (3, 9, 4); (3, 4, 2); (3, 2, 6); (3, 6, 8); (3, 8, 9);
   (4, 9, 5); (2, 4, 11); (6, 2, 10); (8, 6, 7); (9, 8, 1)]%Z.

Section Argsort.
Variable argsort : list Z -> list nat.

(* utils/ico_sphere.py:72-86 for level n >= 0. verts /= verts.norm(p=2, dim=1, keepdim=True) writes
   into the vertices of the subdivided mesh, which nobody else holds. Division by a zero norm gives
   infinities or NaNs in the code; the theorems show that no norm is zero. *)
Fixpoint ico_level (n : nat) : result meshes :=
  match n with
  | O => new_list [ico_verts0] [ico_faces0]
  | S n' =>
      mesh <- ico_level n' ;;
      s <- subdivide_heterogeneous argsort (F := unit) (fun u _ => u) mesh None ;;
      let '(mesh, _, _) := s in
      vm <- verts_list mesh ;; let '(vl, mesh) := vm in
      verts <- rget vl 0 ;;
      let verts := map (fun v => div3 v (norm3 v)) verts in
      fm <- faces_list mesh ;; let '(fl, mesh) := fm in
      faces <- rget fl 0 ;;
      new_list [verts] [faces]
  end.
(* utils/ico_sphere.py:58-86 *)
Definition ico_sphere (level : Z) : result meshes :=
  if (level <? 0)%Z then Fail EValue else ico_level (Z.to_nat level).
End Argsort.

(* utils/torus.py:17-21: (-1, 0), (0, 1), ..., (N - 2, N - 1) *)
Definition range (N : Z) : list Z := map Z.of_nat (seq 0 (Z.to_nat N)).
Definition pair_range (N : Z) : list (Z * Z) := map (fun j => (j - 1, j)%Z) (range N).

(* utils/torus.py:48-60 *)
Definition torus_verts (r R : R) (sides rings : Z) : list vec3 :=
  flat_map (fun i =>
    let phi := 2 * PI * IZR i / IZR rings in
    map (fun j =>
      let theta := 2 * PI * IZR j / IZR sides in
      V3 ((R + r * cos theta) * cos phi) ((R + r * cos theta) * sin phi) (r * sin theta)) (range sides)) (range rings).
(* utils/torus.py:62-72; % is Python's, with a result in [0, n) for n > 0 *)
Definition torus_faces (sides rings : Z) : list face :=
  flat_map (fun i => let '(i0, i1) := i in
    let index0 := ((i0 mod rings) * sides)%Z in
    let index1 := ((i1 mod rings) * sides)%Z in
    flat_map (fun j => let '(j0, j1) := j in
      let index00 := (index0 + (j0 mod sides))%Z in
      let index01 := (index0 + (j1 mod sides))%Z in
      let index10 := (index1 + (j0 mod sides))%Z in
      let index11 := (index1 + (j1 mod sides))%Z in
      [(index00, index10, index11); (index11, index01, index00)]) (pair_range sides)) (pair_range rings).
(* utils/torus.py:24-76 *)
Definition torus (r R : R) (sides rings : Z) : result meshes :=
  if negb (0 <? sides)%Z then Fail EValue
  else if negb (0 <? rings)%Z then Fail EValue
  else new_list [torus_verts r R sides rings] [torus_faces sides rings].
