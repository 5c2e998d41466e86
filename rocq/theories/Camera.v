(* Model of /repo/pytorch3d/renderer/cameras.py, camera_conversions.py and camera_utils.py.
   Exact reals; a division by exactly zero is an explicit Fail (parameters) or None (points).
   TensorProperties has already broadcast the constructor arguments to one batch size. *)
From Verif Require Import Base RBase Geom LinAlg Transform.
Local Open Scope R_scope.

(* the intrinsic parameters of one camera of a batch, by class *)
Inductive intr :=
| FoVPersp (znear zfar fov aspect : R) (degrees : bool)
| FoVOrtho (znear zfar max_x min_x max_y min_y : R) (scale : vec3)
| Persp (fx fy px py : R)
| Ortho (fx fy px py : R).
Inductive cls := CFoVPersp | CFoVOrtho | CPersp | COrtho.
Definition cls_of (c : intr) : cls :=
  match c with
  | FoVPersp _ _ _ _ _ => CFoVPersp | FoVOrtho _ _ _ _ _ _ _ => CFoVOrtho
  | Persp _ _ _ _ => CPersp | Ortho _ _ _ _ => COrtho
  end.
(* a camera object: cameras.py:543-592, 804-865, 1044-1111, 1285-1349. (height, width) *)
Record cameras := Cams {
  cs_cls : cls; cs_int : list intr; cs_K : option (list mat4);
  cs_R : list mat3; cs_T : list vec3; cs_ndc : bool; cs_size : option (list (R * R)) }.
(* self._N *)
Definition cs_n (cs : cameras) : nat := length (cs_int cs).
(* 753-754, 993-994, 1242-1243, 1476-1477 *)
Definition in_ndc (cs : cameras) : bool :=
  match cs_cls cs with CFoVPersp | CFoVOrtho => true | _ => cs_ndc cs end.
(* keyword arguments of the methods; the scalar parameters are overridden together *)
Record kwargs := Kw {
  k_int : option (list intr); k_K : option (list mat4);
  k_R : option (list mat3); k_T : option (list vec3); k_size : option (list (R * R)) }.
Definition no_kw : kwargs := Kw None None None None None.
Definition orelse {A} (o : option A) (d : A) : A := match o with Some x => x | None => d end.

(* FoVPerspectiveCameras.compute_projection_matrix: 594-649; FoVOrthographicCameras: 867-899;
   _get_sfm_calibration_matrix: 1480-1556 *)
Definition nz (x : R) : bool := negb (Reqb x 0).
Definition calibration (c : intr) : result mat4 :=
  match c with
  | FoVPersp znear zfar fov aspect degrees =>
      let fov := if degrees then PI / 180 * fov else fov in
      let tanHalf := tan (fov / 2) in
      let max_y := tanHalf * znear in
      let min_y := - max_y in
      let max_x := max_y * aspect in
      let min_x := - max_x in
      if nz (cos (fov / 2)) && nz (max_x - min_x) && nz (max_y - min_y) && nz (zfar - znear)
      then Ok (M4 (2 * znear / (max_x - min_x)) 0 ((max_x + min_x) / (max_x - min_x)) 0
                  0 (2 * znear / (max_y - min_y)) ((max_y + min_y) / (max_y - min_y)) 0
                  0 0 (1 * zfar / (zfar - znear)) (- (zfar * znear) / (zfar - znear))
                  0 0 1 0)
      else Fail ERuntime
  | FoVOrtho znear zfar max_x min_x max_y min_y s =>
      if nz (max_x - min_x) && nz (max_y - min_y) && nz (zfar - znear)
      then Ok (M4 (2 / (max_x - min_x) * x3 s) 0 0 (- (max_x + min_x) / (max_x - min_x))
                  0 (2 / (max_y - min_y) * y3 s) 0 (- (max_y + min_y) / (max_y - min_y))
                  0 0 (1 * (1 / (zfar - znear)) * z3 s) (- znear / (zfar - znear))
                  0 0 0 1)
      else Fail ERuntime
  | Persp fx fy px py => Ok (M4 fx 0 px 0  0 fy py 0  0 0 0 1  0 0 1 0)
  | Ortho fx fy px py => Ok (M4 fx 0 0 px  0 fy 0 py  0 0 1 0  0 0 0 1)
  end.
(* get_projection_transform: 684-705, 926-948, 1136-1155, 1377-1395 *)
Definition projection_transform (kw : kwargs) (cs : cameras) : result transform :=
  match (match k_K kw with Some k => Some k | None => cs_K cs end) with
  | Some k => if (length k =? cs_n cs)%nat then Ok (mk_transform (map tr4 k)) else Fail EValue
  | None => k <- rmap calibration (orelse (k_int kw) (cs_int cs)) ;;
            Ok (mk_transform (map tr4 k))
  end.

(* module-level get_world_to_view_transform: 1564-1603 *)
Definition world_to_view (rs : list mat3) (ts : list vec3) : result transform :=
  if (length ts =? length rs)%nat
  then t <- mk_translate (CMat ts) CNone CNone ;; Ok (compose (mk_rotate rs) [t])
  else Fail EValue.
(* the state after a method that received R or T: 191-196, 219-225 store them in self *)
Definition stored (kw : kwargs) (cs : cameras) : cameras :=
  Cams (cs_cls cs) (cs_int cs) (cs_K cs) (orelse (k_R kw) (cs_R cs)) (orelse (k_T kw) (cs_T cs))
       (cs_ndc cs) (cs_size cs).
(* CamerasBase.get_world_to_view_transform: 173-198 *)
Definition view_transform (kw : kwargs) (cs : cameras) : cameras * result transform :=
  let cs' := stored kw cs in (cs', world_to_view (cs_R cs') (cs_T cs')).
(* get_full_projection_transform: 200-227 *)
Definition full_projection (kw : kwargs) (cs : cameras) : cameras * result transform :=
  let '(cs', v) := view_transform kw cs in
  (cs', (t <- v ;; p <- projection_transform kw cs' ;; Ok (compose t [p]))).
(* get_camera_center: 150-171 *)
Definition camera_center (kw : kwargs) (cs : cameras) : cameras * result (list vec3) :=
  let '(cs', v) := view_transform kw cs in
  (cs', (t <- v ;; u <- inverse false t ;; m <- get_matrix u ;;
         Ok (map (fun a => V3 (n30 a) (n31 a) (n32 a)) m))).
(* transform_points: 229-257 *)
Definition project (eps : option R) (kw : kwargs) (cs : cameras) (p : points vec3)
  : cameras * result (points (option vec3)) :=
  let '(cs', t) := full_projection kw cs in
  (cs', (t <- t ;; transform_points eps t p)).

(* a value of length 1 or n assigned to a slice of length n *)
Definition spread {A} (n : nat) (l : list A) : result (list A) :=
  if (length l =? n)%nat then Ok l
  else match l with [x] => Ok (repeat x n) | _ => Fail ERuntime end.
(* get_ndc_to_screen_transform: 1763-1830 *)
Definition screen_mat (s : R * R) : mat4 :=
  let '(h, w) := s in
  let scale := (Rmin h w - 0) / 2 in
  M4 scale 0 0 (-1 * (w - 0) / 2)  0 scale 0 (-1 * (h - 0) / 2)  0 0 1 0  0 0 0 1.
Definition flip_mat : mat4 := M4 (-1) 0 0 0  0 (-1) 0 0  0 0 1 0  0 0 0 1.
Definition ndc_to_screen (n : nat) (xyflip : bool) (size : option (list (R * R))) : result transform :=
  match size with
  | None => Fail EValue
  | Some s =>
      k <- spread n (map screen_mat s) ;;
      let t := mk_transform (map tr4 k) in
      Ok (if xyflip then compose t [mk_transform (map tr4 (repeat flip_mat n))] else t)
  end.
(* get_screen_to_ndc_transform: 1833-1868 *)
Definition screen_to_ndc (n : nat) (xyflip : bool) (size : option (list (R * R))) : result transform :=
  t <- ndc_to_screen n xyflip size ;; inverse false t.
Definition size_of (kw : kwargs) (cs : cameras) : option (list (R * R)) :=
  match k_size kw with Some s => Some s | None => cs_size cs end.
(* get_principal_point: 1189-1199 (row 2), 1423-1433 (row 3) *)
Definition principal_point (kw : kwargs) (cs : cameras) : result (list (R * R)) :=
  p <- projection_transform kw cs ;; m <- get_matrix p ;;
  Ok (map (fun a => match cs_cls cs with COrtho => (n30 a, n31 a) | _ => (n20 a, n21 a) end) m).
(* get_ndc_camera_transform: 1201-1237, 1435-1471 (for FoV cameras, 259-287: the identity) *)
Definition pp_fix (p : R * R) : mat4 :=
  let '(x, y) := p in M4 1 0 0 (-2 * x)  0 1 0 (-2 * y)  0 0 1 0  0 0 0 1.
Definition ndc_camera_transform (kw : kwargs) (cs : cameras) : result transform :=
  if in_ndc cs then Ok mk_identity
  else pp <- principal_point kw cs ;;
       fixes <- spread (cs_n cs) (map pp_fix pp) ;;
       s <- screen_to_ndc (cs_n cs) false (size_of kw cs) ;;
       Ok (compose (mk_transform (map tr4 fixes)) [s]).
(* transform_points_ndc: 289-318 *)
Definition project_ndc (eps : option R) (kw : kwargs) (cs : cameras) (p : points vec3)
  : cameras * result (points (option vec3)) :=
  let '(cs', t) := full_projection kw cs in
  (cs', (t <- t ;;
         if in_ndc cs' then transform_points eps t p
         else n <- ndc_camera_transform kw cs' ;; transform_points eps (compose t [n]) p)).
(* transform_points applied to points some of which are not finite *)
Definition transform_opt (eps : option R) (t : transform) (p : points (option vec3))
  : result (points (option vec3)) :=
  m <- get_matrix t ;;
  out <- broadcast (fun pts a => map (fun q => match q with
                                              | Some q => from_h eps (vmul4 (to_h q) a)
                                              | None => None end) pts) (as_batch p) m ;;
  Ok (reshape p out).
(* transform_points_screen: 320-356 *)
Definition project_screen (eps : option R) (xyflip : bool) (kw : kwargs) (cs : cameras)
    (p : points vec3) : cameras * result (points (option vec3)) :=
  let '(cs', q) := project_ndc eps kw cs p in
  (cs', (q <- q ;; s <- ndc_to_screen (cs_n cs) xyflip (size_of kw cs) ;; transform_opt eps s q)).

(* ---- unprojection ---- *)
Definition set_z (p : vec3) (z : R) : vec3 := V3 (x3 p) (y3 p) z.
(* FoVPerspectiveCameras, 734-745: (f1 d + f2) / d *)
Definition persp_depth (a : mat4) (p : vec3) : option vec3 :=
  if Reqb (z3 p) 0 then None else Some (set_z p ((n22 a * z3 p + n32 a) / z3 p)).
(* FoVOrthographicCameras, 977-985 *)
Definition ortho_depth (a : mat4) (p : vec3) : option vec3 :=
  Some (set_z p (n22 a * z3 p + n32 a)).
(* a per-camera factor of shape (N,1,1) times a (B,P,1) tensor, then torch.cat with (B,P,2) *)
Definition scale_batch (f : mat4 -> vec3 -> option vec3) (km : list mat4) (l : list (list vec3))
  : result (list (list (option vec3))) :=
  if (length km =? length l)%nat then Ok (map (fun c => map (f (fst c)) (snd c)) (combine km l))
  else match km with [a] => Ok (map (map (f a)) l) | _ => Fail ERuntime end.
(* for a (P,3) input: FoVPerspective reshapes the factors to (N,1), which pairs camera i with
   point i when N = P (738-741); FoVOrthographic reshapes to (N,1,1), and torch.cat of (N,P,1)
   with (P,2) raises (979-986) *)
Definition scale_depth (c : cls) (km : list mat4) (p : points vec3) : result (points (option vec3)) :=
  match p with
  | P3 l => o <- scale_batch (match c with CFoVPersp => persp_depth | _ => ortho_depth end) km l ;;
            Ok (P3 o)
  | P2 l =>
      match c with
      | CFoVPersp =>
          if (length km =? length l)%nat
          then Ok (P2 (map (fun c => persp_depth (fst c) (snd c)) (combine km l)))
          else match km with [a] => Ok (P2 (map (persp_depth a) l)) | _ => Fail ERuntime end
      | _ => Fail ERuntime
      end
  end.
Definition pmap {A B} (f : A -> B) (p : points A) : points B :=
  match p with P2 l => P2 (map f l) | P3 l => P3 (map (map f) l) end.
Definition inv_depth (p : vec3) : option vec3 :=
  if Reqb (z3 p) 0 then None else Some (set_z p (/ z3 p)).
Definition full_or_view (world : bool) (kw : kwargs) (cs : cameras) : cameras * result transform :=
  if world then full_projection kw cs else (cs, projection_transform kw cs).
(* unproject_points: 707-749 (no keyword arguments reach the transform), 950-988, 1157-1187,
   1397-1421 (get_ndc_camera_transform is called without the keyword arguments) *)
Definition unproject (world scaled from_ndc : bool) (kw : kwargs) (cs : cameras) (p : points vec3)
  : cameras * result (points (option vec3)) :=
  match cs_cls cs with
  | CFoVPersp =>
      let '(cs', t) := full_or_view world no_kw cs in
      (cs', (t <- t ;;
             q <- (if scaled then Ok (pmap Some p)
                   else k <- projection_transform kw cs' ;; km <- get_matrix k ;;
                        scale_depth CFoVPersp km p) ;;
             u <- inverse false t ;; transform_opt None u q))
  | CFoVOrtho =>
      let '(cs', t) := full_or_view world kw cs in
      (cs', (t <- t ;;
             q <- (if scaled then Ok (pmap Some p)
                   else k <- projection_transform kw cs' ;; km <- get_matrix k ;;
                        scale_depth CFoVOrtho km p) ;;
             u <- inverse false t ;; transform_opt None u q))
  | c =>
      let '(cs', t) := full_or_view world kw cs in
      (cs', (t <- t ;;
             t <- (if from_ndc then n <- ndc_camera_transform no_kw cs' ;; Ok (compose t [n])
                   else Ok t) ;;
             u <- inverse false t ;;
             transform_opt None u (pmap (match c with CPersp => inv_depth | _ => Some end) p)))
  end.

(* ---- indexing and joining ---- *)
(* __getitem__: 395-463. Upper bound checked by max(index), negative indices left to torch;
   max of an empty list raises ValueError, of an empty tensor TypeError *)
Inductive cindex := CxInt (i : Z) | CxList (l : list Z) | CxMask (b : list bool).
Definition cams_index (cs : cameras) (ix : cindex) : result index :=
  let n := Z.of_nat (cs_n cs) in
  match ix with
  | CxMask b => if (length b =? cs_n cs)%nat then Ok (IxMask b) else Fail EValue
  | CxInt i => if (n <=? i)%Z then Fail EIndex else Ok (IxList [i])
  | CxList [] => Fail EValue
  | CxList (i :: l) => if (n <=? fold_left Z.max l i)%Z then Fail EIndex else Ok (IxList (i :: l))
  end.
Definition take_opt {A} (o : option (list A)) (ix : index) : result (option (list A)) :=
  match o with None => Ok None | Some l => x <- take_index l ix ;; Ok (Some x) end.
(* the fields listed in _FIELDS are the record's fields *)
Definition cams_getitem (cs : cameras) (ix : cindex) : result cameras :=
  ix <- cams_index cs ix ;;
  i <- take_index (cs_int cs) ix ;; k <- take_opt (cs_K cs) ix ;;
  r <- take_index (cs_R cs) ix ;; t <- take_index (cs_T cs) ix ;; s <- take_opt (cs_size cs) ix ;;
  Ok (Cams (cs_cls cs) i k r t (cs_ndc cs) s).
(* join_cameras_as_batch: camera_utils.py:148-208 *)
Definition cls_eqb (a b : cls) : bool :=
  match a, b with
  | CFoVPersp, CFoVPersp | CFoVOrtho, CFoVOrtho | CPersp, CPersp | COrtho, COrtho => true
  | _, _ => false
  end.
Definition is_some {A} (o : option A) : bool := match o with Some _ => true | None => false end.
Definition join_opt {A} (l : list (option (list A))) : result (option (list A)) :=
  if negb (existsb is_some l) then Ok None
  else if forallb is_some l then Ok (Some (concat (map (fun o => orelse o []) l)))
  else Fail EValue.
(* the shared field of the class: "degrees" (554) or "_in_ndc" (1054, 1296); none for FoVOrtho *)
Definition degrees_of (cs : cameras) : option bool :=
  match cs_int cs with FoVPersp _ _ _ _ d :: _ => Some d | _ => None end.
Definition obool_eqb (a b : option bool) : bool :=
  match a, b with Some x, Some y => eqb x y | None, None => true | _, _ => false end.
Definition shared_ok (c0 c : cameras) : bool :=
  match cs_cls c0 with
  | CFoVPersp => obool_eqb (degrees_of c) (degrees_of c0)
  | CFoVOrtho => true
  | _ => eqb (cs_ndc c) (cs_ndc c0)
  end.
Definition join_cameras (l : list cameras) : result cameras :=
  match l with
  | [] => Fail EIndex
  | c0 :: _ =>
      if negb (forallb (fun c => cls_eqb (cs_cls c) (cs_cls c0)) l) then Fail EValue
      else if negb (forallb (shared_ok c0) l) then Fail EValue
      else k <- join_opt (map cs_K l) ;; s <- join_opt (map cs_size l) ;;
           Ok (Cams (cs_cls c0) (concat (map cs_int l)) k (concat (map cs_R l))
                    (concat (map cs_T l)) (cs_ndc c0) s)
  end.

(* ---- placing a camera ---- *)
(* camera_position_from_spherical_angles: 1606-1645 *)
Definition spherical_position (dist elev azim : R) (degrees : bool) : vec3 :=
  let elev := if degrees then PI / 180 * elev else elev in
  let azim := if degrees then PI / 180 * azim else azim in
  V3 (dist * cos elev * sin azim) (dist * sin elev) (dist * cos elev * cos azim).
(* F.normalize(v, eps=1e-5) *)
Definition norm5 (v : vec3) : vec3 := scal3 (/ Rmax (norm3 v) (/ 100000)) v.
(* look_at_rotation: 1648-1695, one camera; torch.isclose(x, 0, atol=5e-3) *)
Definition near0 (x : R) : bool := Rleb (Rabs x) (5 / 1000).
Definition look_at_rotation (pos at_ up : vec3) : mat3 :=
  let z := norm5 (sub3 at_ pos) in
  let x := norm5 (cross3 up z) in
  let y := norm5 (cross3 z x) in
  let x := if near0 (x3 x) && near0 (y3 x) && near0 (z3 x) then norm5 (cross3 y z) else x in
  M3 (x3 x) (x3 y) (x3 z) (y3 x) (y3 y) (y3 z) (z3 x) (z3 y) (z3 z).
(* look_at_view_transform: 1698-1760; placement by eye, or by distance and angles around at *)
Inductive placement := Eye (e : vec3) | Sphere (dist elev azim : R) (degrees : bool).
Definition placed (pl : placement) (at_ : vec3) : vec3 :=
  match pl with Eye e => e | Sphere d e a deg => add3 (spherical_position d e a deg) at_ end.
Definition look_at_view_transform (pl : placement) (at_ up : vec3) : mat3 * vec3 :=
  let c := placed pl at_ in
  let r := look_at_rotation c at_ up in
  (r, scal3 (-1) (mulv3 (tr3 r) c)).
(* camera_to_eye_at_up: camera_utils.py:17-76, one camera of the batch *)
Definition camera_to_eye_at_up (r : mat3) (t : vec3) : result (vec3 * vec3 * vec3) :=
  w <- world_to_view [r] [t] ;; u <- inverse false w ;; m <- get_matrix u ;;
  a <- rget m 0 ;;
  match from_h None (vmul4 (to_h (V3 0 0 0)) a), from_h None (vmul4 (to_h (V3 0 0 1)) a),
        from_h None (vmul4 (to_h (V3 0 1 0)) a) with
  | Some e, Some at_, Some u => Ok (e, at_, sub3 u e)
  | _, _, _ => Fail ERuntime
  end.
(* rotate_on_spot: camera_utils.py:79-145, one camera *)
Definition rotate_on_spot (r : mat3) (t : vec3) (rot : mat3) : mat3 * vec3 :=
  let nr := mul3 r (tr3 rot) in (nr, mulv3 (tr3 nr) (mulv3 r t)).

(* ---- OpenCV: camera_conversions.py ---- *)
(* _cameras_from_opencv_projection: 22-61, one camera; size = (height, width) *)
Definition neg_xy_cols (r : mat3) : mat3 :=
  M3 (- m00 r) (- m01 r) (m02 r) (- m10 r) (- m11 r) (m12 r) (- m20 r) (- m21 r) (m22 r).
Definition cameras_from_opencv (r : mat3) (tvec : vec3) (k : mat3) (size : R * R)
  : result (intr * mat3 * vec3) :=
  let '(h, w) := size in
  let scale := Rmin w h / 2 in
  if Reqb scale 0 then Fail ERuntime else
  Ok (Persp (m00 k / scale) (m11 k / scale)
            (- (m02 k - w / 2) / scale) (- (m12 k - h / 2) / scale),
      neg_xy_cols (tr3 r), V3 (- x3 tvec) (- y3 tvec) (z3 tvec)).
(* PerspectiveCameras.__init__ rejects image_size < 1: 1100-1102 *)
Definition opencv_camera (r : mat3) (tvec : vec3) (k : mat3) (size : R * R) : result cameras :=
  c <- cameras_from_opencv r tvec k size ;;
  if Rltb (fst size) 1 || Rltb (snd size) 1 then Fail EValue
  else let '(i, r', t') := c in Ok (Cams CPersp [i] None [r'] [t'] true (Some [size])).
(* _opencv_from_cameras_projection: 64-101; reads focal_length, principal_point, R, T only *)
Definition opencv_from_cameras (i : intr) (r : mat3) (t : vec3) (size : R * R)
  : result (mat3 * vec3 * mat3) :=
  match i with
  | Persp fx fy px py =>
      let '(h, w) := size in
      let scale := Rmin w h / 2 in
      Ok (tr3 (neg_xy_cols r), V3 (- x3 t) (- y3 t) (z3 t),
          M3 (fx * scale) 0 (- px * scale + w / 2)
             0 (fy * scale) (- py * scale + h / 2)
             0 0 1)
  | _ => Fail EAttr
  end.
