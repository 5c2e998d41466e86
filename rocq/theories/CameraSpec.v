(* Vocabulary for the statements about cameras. *)
From Verif Require Import Base RBase Geom LinAlg Transform TransformSpec Camera.
Local Open Scope R_scope.

(* X_view = X_world R + T, written out *)
Definition view_of (r : mat3) (t : vec3) (x : vec3) : vec3 :=
  V3 (x3 x * m00 r + y3 x * m10 r + z3 x * m20 r + x3 t)
     (x3 x * m01 r + y3 x * m11 r + z3 x * m21 r + y3 t)
     (x3 x * m02 r + y3 x * m12 r + z3 x * m22 r + z3 t).

Definition half_angle (fov : R) (degrees : bool) : R := (if degrees then PI / 180 * fov else fov) / 2.

(* the textbook projection of a point in view coordinates; None on the camera plane *)
Definition pinhole (c : intr) (v : vec3) : option vec3 :=
  let '(V3 x y z) := v in
  match c with
  | FoVPersp n f fov aspect deg =>
      if Reqb z 0 then None else
      let t := tan (half_angle fov deg) in
      Some (V3 (x / (z * t * aspect)) (y / (z * t)) (f * (z - n) / ((f - n) * z)))
  | FoVOrtho n f max_x min_x max_y min_y s =>
      Some (V3 ((2 * x3 s * x - (max_x + min_x)) / (max_x - min_x))
               ((2 * y3 s * y - (max_y + min_y)) / (max_y - min_y))
               ((z3 s * z - n) / (f - n)))
  | Persp fx fy px py =>
      if Reqb z 0 then None else Some (V3 (fx * x / z + px) (fy * y / z + py) (1 / z))
  | Ortho fx fy px py => Some (V3 (fx * x + px) (fy * y + py) z)
  end.

(* parameters for which the projection is a proper (invertible) one *)
Definition regular (c : intr) : Prop :=
  match c with
  | FoVPersp n f fov aspect deg =>
      n <> 0 /\ f <> 0 /\ n <> f /\ aspect <> 0 /\
      sin (half_angle fov deg) <> 0 /\ cos (half_angle fov deg) <> 0
  | FoVOrtho n f max_x min_x max_y min_y s =>
      n <> f /\ max_x <> min_x /\ max_y <> min_y /\ x3 s <> 0 /\ y3 s <> 0 /\ z3 s <> 0
  | Persp fx fy _ _ | Ortho fx fy _ _ => fx <> 0 /\ fy <> 0
  end.

(* the rows a user-supplied calibration matrix must have for its camera class *)
Definition K_shape (c : cls) (k : mat4) : Prop :=
  n20 k = 0 /\ n21 k = 0 /\ n30 k = 0 /\ n31 k = 0 /\
  match c with
  | CFoVPersp => n32 k = 1 /\ n33 k = 0
  | CFoVOrtho => n32 k = 0 /\ n33 k = 1
  | CPersp => n22 k = 0 /\ n23 k = 1 /\ n32 k = 1 /\ n33 k = 0
  | COrtho => n22 k = 1 /\ n23 k = 0 /\ n32 k = 0 /\ n33 k = 1
  end.

(* a consistent call: parameters of the right class, matrices of the right shape *)
Definition sound_call (kw : kwargs) (cs : cameras) : Prop :=
  (forall c, In c (orelse (k_int kw) (cs_int cs)) -> cls_of c = cs_cls cs) /\
  (forall l k, cs_K cs = Some l \/ k_K kw = Some l -> In k l -> K_shape (cs_cls cs) k).

(* the depths of a (P,3) tensor are unambiguous for one camera, or when they are used as given *)
Definition depth_shape_ok (cs : cameras) (p : points vec3) : Prop :=
  match cs_cls cs, p with
  | CFoVPersp, P2 _ => cs_n cs = 1%nat
  | _, _ => True
  end.

(* camera i of the batch *)
Definition camera_at (cs : cameras) (i : nat) (c : intr) (r : mat3) (t : vec3) : Prop :=
  batch_nth (cs_int cs) i = Some c /\ batch_nth (cs_R cs) i = Some r /\ batch_nth (cs_T cs) i = Some t.

(* a constructed object: every tensor attribute has the batch size *)
Definition cams_wf (cs : cameras) : Prop :=
  length (cs_R cs) = cs_n cs /\ length (cs_T cs) = cs_n cs /\
  (forall l, cs_K cs = Some l -> length l = cs_n cs) /\
  (forall l, cs_size cs = Some l -> length l = cs_n cs) /\
  (forall c, In c (cs_int cs) -> cls_of c = cs_cls cs).

(* where a pixel of an h x w image lies: NDC (+x left, +y up, short side [-1,1]) to screen *)
Definition to_pixel (s : R * R) (q : vec3) : vec3 :=
  let '(h, w) := s in
  V3 (w / 2 - Rmin h w / 2 * x3 q) (h / 2 - Rmin h w / 2 * y3 q) (z3 q).

(* OpenCV: x = K (R X + t) in homogeneous coordinates *)
Definition opencv_cam (r : mat3) (t : vec3) (x : vec3) : vec3 :=
  V3 (m00 r * x3 x + m01 r * y3 x + m02 r * z3 x + x3 t)
     (m10 r * x3 x + m11 r * y3 x + m12 r * z3 x + y3 t)
     (m20 r * x3 x + m21 r * y3 x + m22 r * z3 x + z3 t).
Definition opencv_pixel (k : mat3) (v : vec3) : R * R :=
  (m00 k * (x3 v / z3 v) + m02 k, m11 k * (y3 v / z3 v) + m12 k).

(* the Python meaning of an index into a batch of n *)
Definition position (n : nat) (i : Z) : nat := Z.to_nat (if (i <? 0)%Z then i + Z.of_nat n else i)%Z.
Definition positions (n : nat) (ix : cindex) : list nat :=
  match ix with
  | CxInt i => [position n i]
  | CxList l => map (position n) l
  | CxMask b => map fst (filter snd (combine (seq 0 (length b)) b))
  end.
Definition in_bounds (n : nat) (ix : cindex) : Prop :=
  match ix with
  | CxInt i => (- Z.of_nat n <= i < Z.of_nat n)%Z
  | CxList l => l <> [] /\ Forall (fun i => (- Z.of_nat n <= i < Z.of_nat n)%Z) l
  | CxMask b => length b = n
  end.

(* the keyword arguments reach both calls (FoVPerspective drops them, so none there) *)
Definition kw_ok (kw : kwargs) (cs : cameras) : Prop := cs_cls cs = CFoVPersp -> kw = no_kw.
(* the shapes unproject_points accepts *)
Definition call_shape_ok (cs : cameras) (p : points vec3) : Prop :=
  match p with
  | P3 l => l <> [] /\ (length l = cs_n cs \/ cs_n cs = 1%nat)
  | P2 _ => match cs_cls cs with CFoVPersp => cs_n cs = 1%nat | CFoVOrtho => False | _ => True end
  end.
(* the NDC camera with the same image as a screen-space camera *)
Definition ndc_equivalent (s : R * R) (c : intr) : intr :=
  let '(h, w) := s in let k := Rmin h w / 2 in
  match c with
  | Persp fx fy px py => Persp (fx / k) (fy / k) (- (px - w / 2) / k) (- (py - h / 2) / k)
  | Ortho fx fy px py => Ortho (fx / k) (fy / k) (- (px - w / 2) / k) (- (py - h / 2) / k)
  | c => c
  end.
(* pixels per NDC unit *)
Definition scale_of (s : R * R) : R := Rmin (fst s) (snd s) / 2.
