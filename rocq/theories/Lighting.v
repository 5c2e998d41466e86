(* Model of renderer/lighting.py, renderer/materials.py and renderer/mesh/shading.py. Exact reals; tensors
   and broadcasting as in Tens.v. *)
From Verif Require Import Base RBase Tens.
Local Open Scope R_scope.

Definition relu (x : R) : R := Rmax x 0.
(* torch.pow(a, s) for a base a >= 0; pow(0, 0) = 1. A negative exponent of zero is an infinity in the code
   and 0 here: the theorems ask for exponents that are not negative. *)
Definition tpow (a s : R) : R := if Reqb a 0 then (if Reqb s 0 then 1 else 0) else Rpower a s.

(* the reshaping at lighting.py:60-66 and 121-132: a property that does not have the shape of the points gets
   the intermediate dimensions *)
Definition reshape_like (points : tensor) (tail : list nat) (a : tensor) : result tensor :=
  if shape_eqb (shp a) (shp points) then Ok a
  else view_first a (repeat 1%nat (length (shp points) - 2) ++ tail).

(* diffuse, lighting.py:17-73 *)
Definition diffuse (normals color direction : tensor) : result tensor :=
  l <- broadcast [normals; color; direction] ;;
  match l with
  | [normals; color; direction] =>
      direction <- reshape_like normals [3%nat] direction ;;
      color <- reshape_like normals [3%nat] color ;;
      p <- bop Rmult (normalize_last normals) (normalize_last direction) ;;
      let angle := tmap relu (sum_last p) in
      bop Rmult color (unsqueeze_last angle)
  | _ => Fail ERuntime
  end.

(* specular, lighting.py:76-155 *)
Definition specular (points normals direction color camera_position shininess : tensor) : result tensor :=
  if negb (shape_eqb (shp points) (shp normals)) then Fail EValue
  else
    l <- broadcast [points; color; direction; camera_position; shininess] ;;
    match l with
    | [_; color; direction; camera_position; shininess] =>
        direction <- reshape_like points [3%nat] direction ;;
        color <- reshape_like points [3%nat] color ;;
        camera_position <- reshape_like points [3%nat] camera_position ;;
        shininess <- reshape_like points [] shininess ;;
        let normals := normalize_last normals in
        let direction := normalize_last direction in
        p <- bop Rmult normals direction ;;
        let cos_angle := sum_last p in
        let mask := tmap (fun x => if Rltb 0 x then 1 else 0) cos_angle in
        view <- bop Rminus camera_position points ;;
        let view := normalize_last view in
        q <- bop Rmult (unsqueeze_last cos_angle) normals ;;
        reflect <- bop Rplus (tmap Ropp direction) (tmap (Rmult 2) q) ;;
        r <- bop Rmult view reflect ;;
        alpha <- bop Rmult (tmap relu (sum_last r)) mask ;;
        e <- bop tpow alpha shininess ;;
        bop Rmult color (unsqueeze_last e)
    | _ => Fail ERuntime
    end.

(* ---- the lights ---- *)
Inductive lights :=
  | Directional (ambient diff spec direction : tensor)      (* DirectionalLights, 158-216 *)
  | Point (ambient diff spec location : tensor)             (* PointLights, 219-290 *)
  | Ambient (ambient : tensor).                             (* AmbientLights, 293-341 *)
Definition channels3 (a : tensor) : bool := (last_dim a =? 3)%nat.
(* the constructors: TensorProperties.__init__ (utils.py:99-143), _validate_light_properties (344-350) *)
Definition directional_lights (ambient diff spec direction : tensor) : result lights :=
  l <- broadcast [ambient; diff; spec; direction] ;;
  match l with
  | [a; d; s; v] => if forallb channels3 l then Ok (Directional a d s v) else Fail EValue
  | _ => Fail ERuntime
  end.
Definition point_lights (ambient diff spec location : tensor) : result lights :=
  l <- broadcast [ambient; diff; spec; location] ;;
  match l with
  | [a; d; s; v] => if forallb channels3 l then Ok (Point a d s v) else Fail EValue
  | _ => Fail ERuntime
  end.
Definition ambient_of (l : lights) : tensor :=
  match l with Directional a _ _ _ | Point a _ _ _ | Ambient a => a end.
(* PointLights.reshape_location, 262-271 *)
Definition reshape_location (location points : tensor) : result tensor :=
  if (length (shp location) =? length (shp points))%nat then Ok location else spread_batch location.
(* AmbientLights._zeros_channels, 337-341 *)
Definition zeros_channels (ambient points : tensor) : tensor :=
  T (removelast (shp points) ++ [last_dim ambient]) (fun _ => 0).
Definition light_diffuse (l : lights) (normals points : tensor) : result tensor :=
  match l with
  | Directional _ d _ v => diffuse normals d v
  | Point _ d _ x => x <- reshape_location x points ;; v <- bop Rminus x points ;; diffuse normals d v
  | Ambient a => Ok (zeros_channels a points)
  end.
Definition light_specular (l : lights) (normals points camera_position shininess : tensor) : result tensor :=
  match l with
  | Directional _ _ s v => specular points normals v s camera_position shininess
  | Point _ _ s x =>
      x <- reshape_location x points ;; v <- bop Rminus x points ;;
      specular points normals v s camera_position shininess
  | Ambient a => Ok (zeros_channels a points)
  end.

(* Materials, materials.py:15-64 *)
Record materials := Mat { m_ambient : tensor; m_diffuse : tensor; m_specular : tensor; m_shininess : tensor }.
Definition make_materials (ambient diff spec shininess : tensor) : result materials :=
  l <- broadcast [diff; ambient; spec; shininess] ;;
  match l with
  | [d; a; s; e] =>
      if ((last_dim d =? last_dim a) && (last_dim s =? last_dim a))%nat then
        if shape_eqb (shp e) [batch_size d] then Ok (Mat a d s e) else Fail EValue
      else Fail EValue
  | _ => Fail ERuntime
  end.

(* ---- shading.py ---- *)
(* _apply_lighting, 18-57; the cameras are given by their centres, cameras.get_camera_center() *)
Definition apply_lighting (points normals : tensor) (l : lights) (centers : tensor) (m : materials)
  : result (tensor * tensor * tensor) :=
  ld <- light_diffuse l normals points ;;
  ls <- light_specular l normals points centers (m_shininess m) ;;
  a <- bop Rmult (m_ambient m) (ambient_of l) ;;
  d <- bop Rmult (m_diffuse m) ld ;;
  s <- bop Rmult (m_specular m) ls ;;
  if ((length (shp normals) =? 2) && (length (shp points) =? 2))%nat then Ok (squeeze a, squeeze d, squeeze s)
  else if negb (length (shp a) =? length (shp d))%nat
       then a <- spread_batch a ;; Ok (a, d, s)
       else Ok (a, d, s).

Definition corner (f : nat * nat * nat) (j : nat) : nat :=
  match j with 0%nat => fst (fst f) | 1%nat => snd (fst f) | _ => snd f end.
Definition no_face : nat * nat * nat := (0, 0, 0)%nat.
(* attributes[faces]; face indices are natural numbers *)
Definition face_attributes (a : tensor) (faces : list (nat * nat * nat)) : result tensor :=
  match shp a with
  | [v; d] =>
      if forallb (fun f => (corner f 0 <? v) && (corner f 1 <? v) && (corner f 2 <? v))%nat faces
      then Ok (T [length faces; 3; d]%nat
                 (fun ix => match ix with
                            | [f; j; c] => get a [corner (nth f faces no_face) j; c]
                            | _ => 0
                            end))
      else Fail EIndex
  | _ => Fail EIndex
  end.
(* pix_to_face, (N, H, W, K) *)
Record itensor := IT { ishp : list nat; iget : list nat -> Z }.
(* interpolate_face_attributes (the Python version), ops/interp_face_attrs.py:15-102; the last dimension of
   the barycentric coordinates is multiplied with the three corners *)
Definition interpolate (p2f : itensor) (bary attrs : tensor) : result tensor :=
  match shp attrs, shp bary with
  | [f; fv; d], [n; h; w; k; b] =>
      if negb (fv =? 3)%nat then Fail EValue
      else if negb (shape_eqb (ishp p2f) [n; h; w; k]) then Fail EValue
      else if negb (b =? 3)%nat then Fail ERuntime
      else
        let face ix := if (iget p2f ix <? 0)%Z then 0%nat else Z.to_nat (iget p2f ix) in
        if forallb (fun ix => face ix <? f)%nat (indices [n; h; w; k]) then
          Ok (T [n; h; w; k; d] (fun ix =>
                let q := removelast ix in
                let c := last ix 0%nat in
                if (iget p2f q <? 0)%Z then 0
                else sumf 3 (fun j => get bary (q ++ [j]) * get attrs [face q; j; c])))
        else Fail ERuntime
  | _, _ => Fail EValue
  end.

(* (ambient + diffuse) * texels + specular *)
Definition combine_colors (a d s texels : tensor) : result tensor :=
  x <- bop Rplus a d ;; y <- bop Rmult x texels ;; bop Rplus y s.
(* phong_shading, 60-125 *)
Definition phong_shading (verts vertex_normals : tensor) (faces : list (nat * nat * nat)) (p2f : itensor)
    (bary : tensor) (l : lights) (centers : tensor) (m : materials) (texels : tensor) : result tensor :=
  fv <- face_attributes verts faces ;;
  fn <- face_attributes vertex_normals faces ;;
  points <- interpolate p2f bary fv ;;
  normals <- interpolate p2f bary fn ;;
  c <- apply_lighting points normals l centers m ;;
  let '(a, d, s) := c in
  combine_colors a d s texels.

(* face_coords.gather(0, idx).view(N, H, W, K, 3), with the masked entries set to zero, 200-214 *)
Definition gather_faces (p2f : itensor) (a : tensor) : result tensor :=
  match shp a, ishp p2f with
  | [f; d], [n; h; w; k] =>
      let mask ix := (iget p2f ix =? -1)%Z in
      let face ix := if mask ix then 0%Z else iget p2f ix in
      if negb (d =? 3)%nat then Fail ERuntime
      else if forallb (fun ix => (0 <=? face ix)%Z && (face ix <? Z.of_nat f)%Z) (indices [n; h; w; k]) then
        Ok (T [n; h; w; k; 3]%nat (fun ix =>
              let q := removelast ix in
              if mask q then 0 else get a [Z.to_nat (face q); last ix 0%nat]))
      else Fail ERuntime
  | _, _ => Fail EValue
  end.
(* faces_verts.mean(dim=-2), 196 *)
Definition mean_corner (a : tensor) : result tensor :=
  match shp a with
  | [f; fv; d] => Ok (T [f; d] (fun ix => match ix with
                                          | [i; c] => sumf fv (fun j => get a [i; j; c]) / INR fv
                                          | _ => 0
                                          end))
  | _ => Fail EIndex
  end.
(* flat_shading, 176-225 *)
Definition flat_shading (verts face_normals : tensor) (faces : list (nat * nat * nat)) (p2f : itensor)
    (l : lights) (centers : tensor) (m : materials) (texels : tensor) : result tensor :=
  fv <- face_attributes verts faces ;;
  fc <- mean_corner fv ;;
  points <- gather_faces p2f fc ;;
  normals <- gather_faces p2f face_normals ;;
  c <- apply_lighting points normals l centers m ;;
  let '(a, d, s) := c in
  combine_colors a d s texels.

(* clone().gather_props(vert_to_mesh_idx) of lights, cameras and materials, 155-158. Gathering the centres
   of the cameras stands for gathering their properties, from which every centre is computed alone. *)
Definition gather_lights (idx : list nat) (l : lights) : result lights :=
  match l with
  | Directional a d s v =>
      a <- gather_prop idx a ;; d <- gather_prop idx d ;; s <- gather_prop idx s ;; v <- gather_prop idx v ;;
      Ok (Directional a d s v)
  | Point a d s x =>
      a <- gather_prop idx a ;; d <- gather_prop idx d ;; s <- gather_prop idx s ;; x <- gather_prop idx x ;;
      Ok (Point a d s x)
  | Ambient a => a <- gather_prop idx a ;; Ok (Ambient a)
  end.
Definition gather_materials (idx : list nat) (m : materials) : result materials :=
  a <- gather_prop idx (m_ambient m) ;; d <- gather_prop idx (m_diffuse m) ;;
  s <- gather_prop idx (m_specular m) ;; e <- gather_prop idx (m_shininess m) ;;
  Ok (Mat a d s e).
(* gouraud_shading, 128-173. nmeshes = len(meshes); owner = verts_packed_to_mesh_idx; colors = the packed
   vertex features, None when the textures are not TexturesVertex. *)
Definition gouraud_shading (nmeshes : nat) (owner : list nat) (verts vertex_normals : tensor)
    (faces : list (nat * nat * nat)) (colors : option tensor) (p2f : itensor) (bary : tensor)
    (l : lights) (centers : tensor) (m : materials) : result tensor :=
  match colors with
  | None => Fail EValue
  | Some colors =>
      st <- (if (1 <? nmeshes)%nat
             then l <- gather_lights owner l ;; c <- gather_prop owner centers ;; m <- gather_materials owner m ;;
                  Ok (l, c, m)
             else Ok (l, centers, m)) ;;
      let '(l, centers, m) := st in
      c <- apply_lighting verts vertex_normals l centers m ;;
      let '(a, d, s) := c in
      x <- bop Rplus a d ;;
      y <- bop Rmult colors x ;;
      shaded <- bop Rplus y s ;;
      fc <- face_attributes shaded faces ;;
      interpolate p2f bary fc
  end.
